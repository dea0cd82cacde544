{"id": "C01", "title": "Duplicate removal keeps the first of every class", "statement": "remove_equivalent(l, eq) leaves in l, in their original order, exactly those elements that no element kept before them is eq to. No two kept elements (earlier, later) satisfy eq, and every dropped element is eq to a kept element that stood before it.", "quantifier": "every list, every pure Boolean eq (not assumed reflexive, symmetric or transitive)", "why_tests_cant": "the loop pops from the list it iterates over; the claim ranges over all lengths and all relations, and an index slip shows only for particular duplicate patterns", "anchors": ["neutrinomass/utils/functions.py:remove_equivalent"]}
{"id": "C02", "title": "The non-mutating duplicate removal agrees with the mutating one", "statement": "remove_equivalent_nopop(l, eq) returns exactly the list that remove_equivalent would leave in l, leaves l alone, terminates and never indexes out of range.", "quantifier": "every list and every pure Boolean eq", "why_tests_cant": "two different loops with two different bookkeeping schemes have to agree on infinitely many inputs", "anchors": ["neutrinomass/utils/functions.py:remove_equivalent_nopop", "neutrinomass/utils/functions.py:dropped_vals"]}
{"id": "C03", "title": "Chunking and flattening lose nothing", "statement": "Concatenating chunks(l, n) gives l back; every chunk but the last has exactly n elements and the last has between 1 and n. flatten yields the leaves of an arbitrarily nested list/tuple in left-to-right order.", "quantifier": "every list, every n >= 1, every nesting depth", "why_tests_cant": "boundary at every multiple of n; unbounded nesting", "anchors": ["neutrinomass/utils/functions.py:chunks", "neutrinomass/completions/utils.py:chunks", "neutrinomass/completions/utils.py:flatten"]}
{"id": "C04", "title": "Hermitian conjugation of field strings is an involution", "statement": "For every Standard Model label (with or without .conj) and every well-formed exotic string lor,col,iso,hyp,bar, conjugate_field returns a well-formed string, conjugating twice gives the string back, and only colour order and the signs of hyp and bar change.", "quantifier": "every well-formed field string of any length", "why_tests_cant": "the domain is infinite (hypercharges, baryon numbers and colour digits); the double-minus and zero cases are easy to miss", "anchors": ["neutrinomass/utils/functions.py:conjugate_field", "neutrinomass/utils/functions.py:negate_u1"]}
{"id": "C05", "title": "Conjugating an interaction is canonical", "statement": "conjugate_term(t) is sorted, does not depend on the order of t, and conjugate_term(conjugate_term(t)) is t sorted.", "quantifier": "every tuple of well-formed field strings", "why_tests_cant": "all lengths and all orders", "anchors": ["neutrinomass/utils/functions.py:conjugate_term"]}
{"id": "C06", "title": "A successful pattern match really matches", "statement": "If pmatch/pattern_match(p, d, frame) returns a frame for data that contains no pattern variables, the returned frame extends the one passed in and substituting it in p gives d.", "quantifier": "all nested list/tuple patterns and data, all starting frames with variable-free bindings", "why_tests_cant": "recursion over nested data with state threaded through it", "anchors": ["neutrinomass/utils/match.py:pattern_match", "neutrinomass/utils/match.py:_match_on_collection", "neutrinomass/utils/match.py:_extend_if_consistent"]}
{"id": "C07", "title": "The pattern matcher finds a match whenever there is one", "statement": "For a pattern and data without empty strings, data without variables, and a recursion limit above the size of the data: if some substitution extending the given frame turns p into d (same nesting and same list/tuple kinds), pattern_match returns a frame rather than False, and is_match is True exactly when such a substitution exists. Deviation: with an empty string inside, or with variables in the data, a match can be missed or the matcher can recurse for ever.", "quantifier": "all patterns, data and frames", "why_tests_cant": "existential over infinitely many substitutions; a bare except hides failures", "anchors": ["neutrinomass/utils/match.py:pattern_match", "neutrinomass/utils/match.py:is_match"]}
{"id": "C08", "title": "factors returns exactly the divisors", "statement": "factors(n) is the set of positive divisors of n, for every n >= 1 for which the computed integer square root is at least the true one.", "quantifier": "every n >= 1 and every root estimate", "why_tests_cant": "the pairing of i with n//i must be right at and around perfect squares for all n", "anchors": ["neutrinomass/completions/utils.py:factors"]}
{"id": "C09", "title": "Simultaneous relabelling of strings", "statement": "multiple_replace(mapping, text) replaces every occurrence of a key once, left to right, never re-scanning inserted text; text over labels none of which is a prefix of another is mapped label by label, and swapping labels twice restores the text.", "quantifier": "every mapping and text", "why_tests_cant": "sequential replacement passes most examples; only overlapping or swapped labels tell them apart", "anchors": ["neutrinomass/completions/utils.py:multiple_replace"]}
{"id": "C10", "title": "Every distinct exotic field gets its own prime", "statement": "prime_registry maps every field that occurs in some model key to a prime, fields that occur nowhere get none, and two different fields never share a prime.", "quantifier": "every dictionary of completions", "why_tests_cant": "injectivity over all pairs and all registry sizes", "anchors": ["neutrinomass/completions/completions.py:prime_registry"]}
{"id": "C11", "title": "Filtering completions against a sieve is containment of field content", "statement": "filter_completions(completions, sieve) keeps exactly the models whose multiset of exotic fields does not contain the multiset of exotic fields of any sieve model, and keeps each kept model's completions unchanged.", "quantifier": "every pair of dictionaries keyed by tuples of fields", "why_tests_cant": "the code tests this through products of primes and divisor sets; equivalence with containment needs unique factorisation", "anchors": ["neutrinomass/completions/completions.py:filter_completions", "neutrinomass/completions/completions.py:model_registry", "neutrinomass/completions/completions.py:prime_registry"]}
{"id": "C12", "title": "Characteristic numbers identify interactions up to conjugation", "statement": "Two completions get the same characteristic number exactly when their lists of interactions agree as multisets after identifying each interaction with its hermitian conjugate, whatever order the term dictionary was built in.", "quantifier": "every list of completions, every pair in it, every order of construction", "why_tests_cant": "equality of products over unbounded sets of primes; needs conjugation to be an involution and unique factorisation", "anchors": ["neutrinomass/completions/completions.py:cons_term_prime_dict", "neutrinomass/completions/completions.py:completion_characteristic_number"]}
{"id": "C13", "title": "clean_completions removes duplicates and nothing else", "statement": "clean_completions returns a list sorted by topology, with no two entries that agree on topology and on interactions up to conjugation, and with an entry for every input completion that agrees with it on both; every entry is one of the inputs (the last of its class).", "quantifier": "every list of completions", "why_tests_cant": "every ordering and multiplicity of duplicates", "anchors": ["neutrinomass/completions/completions.py:clean_completions"]}
{"id": "C14", "title": "What collect_completions returns", "statement": "The entries of the dictionary are exactly the longest blocks of neighbouring completions with the same exotic fields (with multiplicity) that are not followed by a completion with the same set of fields; each is listed under the sorted list of its distinct fields. So nothing is listed under a wrong key, every field content appears as a key, and nothing is lost when completions of one model are adjacent. Deviation: completions of one model separated by another model, or models that differ in multiplicities only, overwrite one another and are lost.", "quantifier": "every list of completions", "why_tests_cant": "depends on the order of the input: grouping only merges neighbours", "anchors": ["neutrinomass/completions/completions.py:collect_completions"]}
{"id": "C15", "title": "Model numbers encode field content", "statement": "For every way of enumerating the (unordered) sets of fields while the prime tables are built: a field and its conjugate share a prime, different classes have different primes, and the democratic (stringent) number of model A divides that of model B exactly when A's fields (interactions), up to conjugation, are a sub-multiset of B's.", "quantifier": "every database, every enumeration order of every set, all pairs of models", "why_tests_cant": "hash randomisation changes the enumeration order from run to run; needs unique factorisation", "anchors": ["neutrinomass/database/database.py:ModelDatabase.__init__", "neutrinomass/database/database.py:ModelDatabase.democratic_model_number", "neutrinomass/database/database.py:ModelDatabase.stringent_model_number"]}
{"id": "C16", "title": "Mass filtering keeps exactly the genuine models", "statement": "After filter_by_mass, the models left for operator k are exactly those (in order) for which no model originally present at an operator of strictly higher scale has a number dividing theirs. The result does not depend on the order in which operators are visited.", "quantifier": "every database, every scale table, every visiting order, both numbering conventions", "why_tests_cant": "the filter consumes a database it is itself shrinking; order independence needs transitivity of divisibility", "anchors": ["neutrinomass/database/database.py:ModelDatabase.filter_by_mass", "neutrinomass/database/database.py:ModelDatabase.filter_models_by_mass", "neutrinomass/database/database.py:ModelDatabase.filter_model_by_mass"]}
{"id": "C17", "title": "Dimension filtering keeps exactly the genuine models", "statement": "After filtering by dimension, the models left for operator k are exactly those for which no model originally present at an operator of strictly lower mass dimension has a number dividing theirs, independently of visiting order.", "quantifier": "every database, every assignment of dimensions, every visiting order", "why_tests_cant": "same self-shrinking loop", "anchors": ["neutrinomass/database/database.py:ModelDatabase.filter_by_dimension", "neutrinomass/database/database.py:ModelDatabase.filter_model_by_dimension", "neutrinomass/database/database.py:ModelDatabase.filter_models_by_dimension"]}
{"id": "C18", "title": "Removing equivalent models keeps one per number", "statement": "After remove_equivalent_models every operator keeps, in order, exactly the first model of each model number, and no operator's list is affected by another's.", "quantifier": "every database", "why_tests_cant": "all duplicate patterns", "anchors": ["neutrinomass/database/database.py:ModelDatabase.remove_equivalent_models", "neutrinomass/database/database.py:ModelDatabase.remove_equivalent"]}
{"id": "C19", "title": "Forcing a lazy database", "statement": "After force() a database with a single operator has the same models in the same order, each forced. With several operators only the last operator of the dictionary is left (the loop rebinds self.data), so the docstring's promise holds for one operator only.", "quantifier": "every database and every evaluation of the completion texts", "why_tests_cant": "visible only with two or more operators and only after the loop", "anchors": ["neutrinomass/database/database.py:ModelDatabase.force"]}
{"id": "C20", "title": "Ordering the database", "statement": "order_by_mass / order_by_dimension leave the operators sorted (decreasing scale, increasing dimension), lose no operator that has a scale, invent none, and leave every operator's models alone.", "quantifier": "every database and scale table", "why_tests_cant": "stability and completeness over all sizes", "anchors": ["neutrinomass/database/database.py:ModelDatabase.order_by_mass", "neutrinomass/database/database.py:ModelDatabase.order_by_dimension", "neutrinomass/database/database.py:ModelDatabase.order"]}
{"id": "C21", "title": "Related models", "statement": "related_models(i) returns exactly the other rows whose number is a product of at least two of the primes of row i, each once, when the number of row i is squarefree with at least two prime factors. In every other case (a single exotic, or a repeated or conjugate pair of exotics) it raises ValueError.", "quantifier": "every data frame with distinct row labels, every index, every correct factorint", "why_tests_cant": "subset lattice is exponential; the failing cases are single-field and repeated-field models", "anchors": ["neutrinomass/database/database.py:ModelDataFrame.related_models", "neutrinomass/database/utils.py:subsets"]}
{"id": "C22", "title": "Index algebra", "statement": "For an index label in the documented form (optional minus, optional underscore, type letter, rest): raising/lowering keeps name and type, changes the height and undoes itself; conjugation swaps dotted and undotted at the same height, raises/lowers colour and leaves isospin and generation alone. Conjugating twice gives the index back exactly when the rest of a Lorentz label does not contain the letter of the other Lorentz type. Labels with two minus signs or capital letters are accepted by Index but violate both laws.", "quantifier": "every index label accepted by Index", "why_tests_cant": "labels are arbitrary strings; conjugation is done by text replacement", "anchors": ["neutrinomass/tensormethod/core.py:Index.__neg__", "neutrinomass/tensormethod/core.py:Index.conj", "neutrinomass/tensormethod/core.py:Index.__new__"]}
{"id": "C23", "title": "Fresh indices are fresh", "statement": "Any sequence of Index.fresh / fresh_indices calls never produces the same index twice, and the indices produced for a Dynkin string carry exactly the counts it asks for, in canonical order.", "quantifier": "every sequence of calls, every Dynkin string", "why_tests_cant": "history property over unbounded call sequences", "anchors": ["neutrinomass/tensormethod/core.py:Index.fresh", "neutrinomass/tensormethod/core.py:Index.fresh_indices"]}
{"id": "C24", "title": "Field conjugation", "statement": "Conjugating a field twice gives the field back; conjugation swaps the two Lorentz and the two colour Dynkin labels, keeps isospin, negates every charge, flips is_conj and keeps everything else. The conjugate of an indexed field has the conjugate indices and the attributes of the conjugate field, and conjugating it again gives the original (label without dagger characters).", "quantifier": "every field with Dynkin digits, every index string of the documented form", "why_tests_cant": "all Dynkin labels and charge dictionaries", "anchors": ["neutrinomass/tensormethod/core.py:Field.conj", "neutrinomass/tensormethod/core.py:IndexedField.conj"]}
{"id": "C25", "title": "Indexing a field", "statement": "Field.__call__ succeeds exactly when the index string holds, apart from at most one generation index anywhere, indices of the types and heights the Dynkin labels ask for in the order undotted, dotted, colour, isospin (raised and lowered colour indices mixed at will). The indexed field then has those indices in the order given and all attributes of the field, and its field attribute compares equal to the field.", "quantifier": "every field with Dynkin digits, every index string", "why_tests_cant": "all index orders; colour up/down may be mixed", "anchors": ["neutrinomass/tensormethod/core.py:Field.__call__", "neutrinomass/tensormethod/core.py:assert_consistent_indices", "neutrinomass/tensormethod/core.py:get_dynkin", "neutrinomass/tensormethod/core.py:IndexedField.field"]}
{"id": "C26", "title": "Equal fields hash equally", "statement": "Two fields (or indexed fields) that compare equal have the same hash exactly when their charge dictionaries list their keys in the same order; this holds with at most one charge besides y and 3b, and fails for two extra charges given in different orders.", "quantifier": "every pair of fields", "why_tests_cant": "fails only for particular insertion orders of extra charges", "anchors": ["neutrinomass/tensormethod/core.py:Field.__hash__", "neutrinomass/tensormethod/core.py:Field.__eq__", "neutrinomass/tensormethod/core.py:IndexedField.__hash__"]}
{"id": "C27", "title": "Covariant derivatives of fields", "statement": "D(field, dynkin) succeeds exactly when both Lorentz labels change by one; it keeps colour, isospin, charges, conjugation, statistics and generations, increases the derivative count by one and remembers the first underlying field. mass_dim of the result is that of the field, i.e. the derivative is not counted, and raises for bosons with other labels than (0,0) and (1,1).", "quantifier": "every field, every target, every number of derivatives", "why_tests_cant": "unbounded nesting of derivatives", "anchors": ["neutrinomass/tensormethod/core.py:D", "neutrinomass/tensormethod/core.py:Field.mass_dim"]}
{"id": "C28", "title": "Stripping derivatives inverts taking them", "statement": "Applying D any number of times and then strip_derivs gives back all attributes of the original, no derivatives, but the record of the stripped field is kept, so the result never compares equal to the original. strip_derivs_with_indices succeeds exactly for scalars and for spin-1/2 fields whose derivative has an index of the right kind first, and keeps the gauge indices.", "quantifier": "every field and every chain of derivatives", "why_tests_cant": "unbounded chains; the record of the original is only written at the first derivative", "anchors": ["neutrinomass/tensormethod/core.py:IndexedField.strip_derivs", "neutrinomass/tensormethod/core.py:IndexedField.strip_derivs_with_indices"]}
{"id": "C29", "title": "Operators survive pickling", "statement": "An operator made by the constructor from indexed fields, epsilons and deltas is restored exactly by from_pickle_form(op.pickle_form()) if it has no delta; with a delta unpickling raises AssertionError.", "quantifier": "every operator built from fields, epsilons and deltas", "why_tests_cant": "depends on which invariant symbols occur", "anchors": ["neutrinomass/tensormethod/core.py:Operator.pickle_form", "neutrinomass/tensormethod/core.py:Operator.from_pickle_form", "neutrinomass/tensormethod/core.py:normalise_operator_input"]}
{"id": "C30", "title": "Products of fields", "statement": "decompose_product of no field raises, of one field returns the field itself, of two or more with the same charge keys returns a list in which every field carries the sum of every charge, a history listing the factors in order and the concatenated labels; factors with different charge keys raise. Dimensions are conserved when each field is counted with the product of the multiplicities along its history; with the multiplicity attribute alone they are not (three octets: 448 instead of 512).", "quantifier": "every list of fields whose labels add up to less than ten, every product function that conserves dimensions", "why_tests_cant": "unbounded length; multiplicities above one only appear for adjoints", "anchors": ["neutrinomass/tensormethod/core.py:Field.__mul__", "neutrinomass/tensormethod/core.py:decompose_product", "neutrinomass/tensormethod/core.py:Field.walked"]}
{"id": "C31", "title": "Colour singlets", "statement": "For an operator with n raised and m lowered free colour indices, colour_singlets returns: for n = m one operator for every pairing of raised with lowered indices, each exactly once and without free colour index (for n = m = 3 also the product of two epsilons); for (3,0) the epsilon contraction followed by six uncontracted copies of the operator, for (0,3) the epsilon contraction followed by one uncontracted copy; otherwise ValueError. With overcomplete, n = m = 2 gives one more singlet made of two epsilons that share the next unused colour index and contract the same four indices as two deltas do in another of the results; nothing else changes. No other free index is touched.", "quantifier": "every operator in which no index occurs twice, every number of colour indices", "why_tests_cant": "n! contractions for every n; failures depend on counts of up and down indices", "anchors": ["neutrinomass/tensormethod/contract.py:colour_singlets"]}
{"id": "C32", "title": "SU(2) singlets", "statement": "epsilon_combos(indices) consists of perfect matchings of the indices, every perfect matching occurs, and none twice, in total (2n-1)!!; su2_singlets_type returns one operator for each matching, without free index of that type and with all other free indices, and raises ValueError for an odd number; lorentz_singlets returns every pair of an undotted and a dotted matching once, without free Lorentz index.", "quantifier": "every number of indices; every iteration order of the sets", "why_tests_cant": "(2n-1)!! matchings for every n", "anchors": ["neutrinomass/tensormethod/contract.py:epsilon_combos", "neutrinomass/tensormethod/contract.py:su2_singlets_type", "neutrinomass/tensormethod/contract.py:lorentz_singlets"]}
{"id": "C33", "title": "SU(2) contraction of two operators", "statement": "contract_su2_helper(left, right, out, type) refuses (AssertionError) exactly when out is larger than the number of indices or has the wrong parity; otherwise every product it returns contracts exactly as many pairs (one index from each side) as needed so that out indices of that type stay free. It constructs max(nl, nr)! products, namely the first m indices of the shorter side paired in every order, so pairings repeat and those with other indices of the shorter side are never built; when more pairs are needed than the shorter side has, it returns nothing. contract_su2 multiplies these for the three SU(2) types that are not ignored and leaves all other free indices alone.", "quantifier": "all operators without repeated index and fewer than ten free indices of each kind, all targets", "why_tests_cant": "all index counts and all pairings", "anchors": ["neutrinomass/tensormethod/contract.py:contract_su2_helper", "neutrinomass/tensormethod/contract.py:contract_su2"]}
{"id": "C34", "title": "Operator construction and its shared stack", "statement": "A call of construct_operators that returns leaves the shared default list empty, so its result depends on earlier calls only through the fresh-name counters as long as no earlier call raised. A call that raised leaves entries behind, and the next call computes the operators of the larger product obtained by putting its own product below them: results after an exception are wrong.", "quantifier": "every history of calls", "why_tests_cant": "a mutable default argument is shared between calls; leaks only after an exception at the right depth", "anchors": ["neutrinomass/tensormethod/contract.py:construct_operators"]}
{"id": "C35", "title": "Distributing fields over a topology", "statement": "If a partition has as many S slots as there are bosons and as many F slots as fermions, distribute_fields(fields, partition) returns exactly the ways of putting the fields on the slots (bosons on S, fermions on F, each field once, node numbers kept), no two alike; with pairwise different fields there are s!f! of them. In general replace_fields keeps the tree of nodes and fills the slots in order: fields beyond the slots are silently dropped, slots beyond the fields stay open.", "quantifier": "every partition tree, every field list", "why_tests_cant": "n! placements over arbitrary trees", "anchors": ["neutrinomass/completions/completions.py:distribute_fields", "neutrinomass/completions/completions.py:replace_fields", "neutrinomass/completions/completions.py:replace"]}
{"id": "C36", "title": "Counting indexed fields", "statement": "indexed_fields_with_counters gives every field of an operator, among the fields with its label, the position of the one earlier field it is interchangeable with (isosinglets, or first isospin indices joined by an epsilon), or its own position if there is none. It raises (ValueError) only if a field is interchangeable with two earlier ones. On operators whose fields all carry isospin and whose indices are properly contracted it never raises.", "quantifier": "every operator with distinct fields and canonical index names in which fields with the same label agree about having isospin", "why_tests_cant": "needs three or more equal fields to fail", "anchors": ["neutrinomass/completions/completions.py:indexed_fields_with_counters"]}
{"id": "C37", "title": "Contracting siblings finds the connecting edge", "statement": "get_connecting_edge(graph, nodes) returns (c, o) exactly when the nodes have c as their one common neighbour and c has exactly one further neighbour o; otherwise it raises. Every topology shipped with the package (447, of 14 kinds) has pairwise different external nodes of degree one, reduces step by step by this function to three or four rows around one last vertex, and the edges found are its internal edges, each once; so the reduction raises nothing, for every distribution of fields and every outcome of the contractions. For other kinds get_topology_data raises.", "quantifier": "every graph; every shipped topology; every distribution of fields", "why_tests_cant": "graph-dependent; several hundred data files that no test reads in full", "anchors": ["neutrinomass/completions/completions.py:get_connecting_edge", "neutrinomass/completions/topologies.py:get_topology_data", "neutrinomass/completions/topology_data"]}
{"id": "C38", "title": "Lorentz structure of a vertex", "statement": "On fields with well-formed indices get_lorentz_epsilons follows its table: more than two derivatives or a higher rest are refused, pairs of equal Lorentz indices are joined. When it allows a contraction of scalars and fermions, at most one Lorentz index is left free, each Lorentz index is contracted at most once, and gauge indices are untouched. Some spin assignments raise AssertionError or AttributeError instead of answering.", "quantifier": "every non-empty list of fields with well-formed, pairwise different indices and any number of derivatives", "why_tests_cant": "case analysis over all spin assignments; crash paths hide behind unusual index counts", "anchors": ["neutrinomass/completions/completions.py:get_lorentz_epsilons", "neutrinomass/completions/completions.py:drop_scalar"]}
{"id": "C39", "title": "Separating contracted from spectator epsilons", "statement": "separate_gauge_epsilons splits the epsilons into two lists that together are the input, in order. If no epsilon is joined to another, an SU(2) epsilon is contracted exactly when both its indices sit on the given fields, and the split does not depend on the order of fields and epsilons. With chained colour epsilons the split depends on the order.", "quantifier": "every non-empty list of fields, every list of epsilons with two or three indices", "why_tests_cant": "order dependence shows up only with chained colour epsilons", "anchors": ["neutrinomass/completions/completions.py:separate_gauge_epsilons", "neutrinomass/completions/completions.py:is_contracted_epsilon"]}
{"id": "C40", "title": "Exotic fields carry the right quantum numbers", "statement": "Contracting two or three fields of spin 0 or 1/2 without derivatives never raises, except for two scalars and one fermion. The exotic field has exactly the free indices of the product, except generation indices, the summed hypercharge, and the class that its spin and representation call for; its label is the symbol given to fields with the same data before, else the next unused one. The partner has the opposite hypercharge, as many spinor and isospin indices of each kind as the exotic field, and its colour indices at the other height. The term recorded consists of the fields, the partner and epsilons, is neutral, and has no free index but generation indices. 3b is summed too, but its sign is flipped for right-handed Majorana fermions, so it need not cancel in the term. Fields with different representations get the same label when their parents only differ in the contraction.", "quantifier": "every list of two or three well-formed fields of low spin, every list of gauge epsilons on distinct indices, every state of the symbol lists with symbols left", "why_tests_cant": "infinitely many field contents; conjugation and Dirac partners interact", "anchors": ["neutrinomass/completions/completions.py:exotic_field_and_term", "neutrinomass/completions/completions.py:check_singlet", "neutrinomass/completions/completions.py:contract", "neutrinomass/completions/core.py:FieldType.lower_su2", "neutrinomass/completions/core.py:cons_completion_field"]}
{"id": "C41", "title": "Completions reduce to one vertex and fail cleanly", "statement": "construct_completion succeeds exactly when every tuple of the partition with more than one element is contracted once, from left to right and from the inside out, and the last vertex is allowed; it then holds one term for each vertex. A failure carries the reason given by a contraction or the last vertex. operator_completions yields exactly the completions that did not fail. Edge labels are kept in a dictionary keyed by exotic field, so equal exotic fields share one entry.", "quantifier": "every partition tree, every outcome of the contractions", "why_tests_cant": "failure can occur at any depth and must propagate", "anchors": ["neutrinomass/completions/completions.py:reduced_row", "neutrinomass/completions/completions.py:replace_and_mutate", "neutrinomass/completions/completions.py:construct_completion", "neutrinomass/completions/completions.py:operator_completions"]}
{"id": "C42", "title": "Closure rules conserve lepton and baryon number", "statement": "fixed_point preserves total lepton number and baryon number (a neutrino-pair constant counting two), so an operator that is reduced to constants has lepton number twice its number of neutrino-pair constants: for lepton number two there is exactly one pair and the assertion in neutrino_mass_estimate holds; for any other lepton number a reduced operator trips that assertion.", "quantifier": "every operator (multiset of components), every rule, any number of rewriting steps", "why_tests_cant": "invariant of an unbounded rewriting process", "anchors": ["neutrinomass/database/closures.py:RULES", "neutrinomass/database/closures.py:apply_rules", "neutrinomass/database/closures.py:neutrino_mass_estimate"]}
{"id": "C43", "title": "Closure rules and electric charge", "statement": "Every rule preserves total electric charge (W counting as the negative boson) except two, {hp, u, c(d)} and {c(eb), nu}, which change it by two units; any sequence of steps changes the charge by twice the difference of the numbers of their uses. Whenever an operator of charge zero is reduced to constants, neither of the two has been used.", "quantifier": "every operator, every sequence of steps", "why_tests_cant": "invariant of an unbounded rewriting process; a sign slip in a rarely used rule is invisible in estimates", "anchors": ["neutrinomass/database/closures.py:RULES", "neutrinomass/database/closures.py:apply_rules"]}
{"id": "C44", "title": "The number of vacuum expectation values is even", "statement": "An operator of electric charge zero and third isospin component zero, without explicit vevs, that is reduced to constants has an even number of vevs and at least two for each neutrino pair. Hence for structures with lepton number two, charge zero and isospin zero neutrino_mass_estimate never raises, skips exactly the structures that are not reduced in ten turns, and returns for each other one the couplings and loop factors found with one extra loopv2 for every two vevs beyond the first two.", "quantifier": "every operator, every list of operators", "why_tests_cant": "invariant of an unbounded rewriting process", "anchors": ["neutrinomass/database/closures.py:RULES", "neutrinomass/database/closures.py:neutrino_mass_estimate"]}
{"id": "C45", "title": "Rewriting terminates in a normal form", "statement": "From an operator with n components at most 3n rule applications are possible; fixed_point with 3n or more turns returns an operator to which no rule applies, and with fewer turns a normal form or the result of exactly that many applications. The result does not depend on the order of the components. The ten turns of neutrino_mass_estimate are not enough for every operator.", "quantifier": "every operator", "why_tests_cant": "unbounded rewriting; an iteration cap of ten only bites for large operators", "anchors": ["neutrinomass/database/closures.py:fixed_point", "neutrinomass/database/closures.py:apply_rules"]}
{"id": "C46", "title": "SU(2) expansion of an operator", "statement": "For an operator made of Standard-Model fields (derivatives are ignored) and up to four isospin epsilons that cover all isospin indices, with index names of which none is contained in another, parse_operator returns one product of components for each of the 2^k ways of giving the two indices of every epsilon the values (0,1) or (1,0), in lexicographic order, each once; each factor is the component selected by the value of its index. If the operator is a singlet of hypercharge zero and lepton number two, every product has charge zero, isospin zero and lepton number two, and neutrino_mass_estimate raises nothing. Five or more epsilons raise IndexError, a tensor with other than two indices among the first four raises ValueError. The names made by Index.fresh are never confused; i1 and i10 are.", "quantifier": "every such operator, any number and names of indices", "why_tests_cant": "2^k components for every k; textual replacement may confuse names; the index table is finite", "anchors": ["neutrinomass/database/closures.py:parse_operator", "neutrinomass/database/closures.py:neutrino_mass_estimate"]}
{"id": "C47", "title": "U(1) symmetries include every conserved charge", "statement": "When the Standard Model and exotic fields and their conjugates are pairwise unequal and every term with an exotic field is made of them, term_to_row gives for each column the occurrences of the field less those of its conjugate (negated if the field is conjugated), a foreign field being a KeyError; a vector is in the span of what u1_symmetries returns exactly when it obeys the three Yukawa couplings and gives every term with an exotic field charge zero. So every additive charge the terms conserve is found, hypercharge and baryon number in particular, and lepton number once it was assigned.", "quantifier": "every set of exotics and interaction terms, every additive charge", "why_tests_cant": "linear-algebra statement over all terms and field contents", "anchors": ["neutrinomass/tensormethod/lagrangian.py:term_to_row", "neutrinomass/tensormethod/lagrangian.py:Lagrangian.u1_symmetries"]}
{"id": "C48", "title": "When u1_symmetries can be computed", "statement": "For exotics made as the package makes them (with two charges, indices and class in agreement, the tilde marking Dirac partners only), none of them a Dirac fermion of zero hypercharge, a complex scalar of mixed colour (both labels non-zero and different) or a real field with baryon number, and interactions over these and the Standard Model fields, the Lagrangian is made and u1_symmetries does not raise: cleaning keeps one of several equal fields and adds the Dirac partners; each mass term is the field times its partner, conserves hypercharge, and is made of known fields. For each of the three excluded kinds u1_symmetries raises KeyError on a concrete field.", "quantifier": "every set of exotics and interactions", "why_tests_cant": "needs a complex fermion of zero hypercharge, colour 15 or a real field with baryon number", "anchors": ["neutrinomass/tensormethod/lagrangian.py:clean_fields", "neutrinomass/tensormethod/lagrangian.py:Lagrangian.u1_symmetries", "neutrinomass/completions/core.py:mass_term"]}
{"id": "C49", "title": "What generating field strings does to the Standard Model fields", "statement": "npoint_fieldstrings, whatever its arguments and outcome, leaves the six global Standard Model fields with an extra charge l (0 for H, Q, ub, db, 1 for L, -1 for eb) and otherwise unchanged; a second call changes nothing more. It considers every choice of n fields in order with repetition exactly once, lexicographically, and for n >= 2 and fields with the same charges never raises and returns the first neutral singlet in the product of each accepted choice. The property that later calls return the same is false: the product of L with a field that has no charge l exists before the call and is an AssertionError after it, and a coupling made before can no longer be turned into a row (KeyError).", "quantifier": "every history of calls", "why_tests_cant": "only visible across calls, through shared global fields", "anchors": ["neutrinomass/tensormethod/lagrangian.py:npoint_fieldstrings", "neutrinomass/tensormethod/smeft.py", "neutrinomass/tensormethod/sm.py"]}
{"id": "C50", "title": "Partitions and graphs are paired correctly", "statement": "get_topology_data pairs each partition file with the graph file of the same stem when the stems contain no dot; the topologies returned are those whose names start with <n>s<m>f_. With a dot in a stem the pairing can go wrong.", "quantifier": "every set of stems without dots present in all three directories, every extension", "why_tests_cant": "lexicographic order of names with different extensions, over all names", "anchors": ["neutrinomass/completions/topologies.py:get_topology_data"]}
{"id": "C51", "title": "Where a derivative may act", "statement": "deriv_possibilities(field, n) returns exactly the fields reached by n derivatives D, each changing the Lorentz labels in one of the allowed ways: both raised; for fermions one raised and the other lowered; for bosons both lowered. Colour, isospin, charges and statistics are kept. For scalars and Weyl fermions and one derivative these are all derivatives there are, each once. For other fields some are missing (a vector's field strength), and for several derivatives the same field is returned more than once.", "quantifier": "every field and n with one-digit labels", "why_tests_cant": "unbounded n", "anchors": ["neutrinomass/tensormethod/parse_hs.py:deriv_possibilities"]}
{"id": "C52", "title": "Placing derivatives", "statement": "derivative_combinations of an operator whose fields carry at most one derivative each builds, for each choice of which fields carry the derivatives, exactly one operator (same order of fields, same gauge index strings, same epsilons, new distinct Lorentz indices), and returns those that do not simplify to zero. operator_strip_derivs fails with AssertionError on a field with two derivatives. Deviation: a field that carried a derivative comes back with default statistics and family number.", "quantifier": "every operator whose stripped fields are scalars or Weyl fermions, every number of derivatives", "why_tests_cant": "binomially many placements after removing duplicates among factorially many permutations", "anchors": ["neutrinomass/completions/completions.py:derivative_combinations", "neutrinomass/completions/completions.py:operator_strip_derivs", "neutrinomass/completions/completions.py:construct_operator", "neutrinomass/completions/utils.py:allowed_lor_dyn"]}
{"id": "C53", "title": "Mass dimension of an effective operator", "statement": "For an operator of scalars, vectors and fermions EffectiveOperator.mass_dimension is the number of bosons plus 3/2 times the number of fermions plus the number of derivatives if the number of fermions is even, and AssertionError if it is odd; an operator whose Lorentz indices are all contracted has an even number of fermions, so for it an integer is returned. A field which is neither fermion, scalar nor vector (a field strength, a twice differentiated scalar) makes it raise. Operator.mass_dim is the same without the derivatives.", "quantifier": "every operator", "why_tests_cant": "parity over all field contents", "anchors": ["neutrinomass/completions/core.py:EffectiveOperator.mass_dimension", "neutrinomass/tensormethod/core.py:Field.mass_dim", "neutrinomass/tensormethod/contract.py:lorentz_singlets"]}
{"id": "C54", "title": "Classification of an operator by its field content", "statement": "For operators without a field whose label begins with D, G, W or B, BL_classification returns the number of the listed field content exactly when the fields with conjugation are a permutation of it, and -1 when they are a permutation of none; with such a label (any, not only derivatives and field strengths) it is -1. It depends only on the multiset of labels with conjugation. The listed contents and their numbers are pairwise different, and every listed content has hypercharge 0, baryon number 0, lepton number 2 and mass dimension 5, 7, 9 or 11.", "quantifier": "every operator", "why_tests_cant": "permutation invariance and injectivity over all lengths", "anchors": ["neutrinomass/tensormethod/core.py:Operator.BL_classification", "neutrinomass/tensormethod/core.py:Operator.contains_derivative", "neutrinomass/tensormethod/lnv.py:BL_LIST"]}
{"id": "C55", "title": "Printed quantum numbers", "statement": "format_quantum_numbers prints the number of states of the SU(3) representation (counted by Gelfand-Tsetlin patterns) with a bar exactly when the second Dynkin label exceeds the first, one more than the SU(2) label, hypercharge and three times the baryon number; a missing charge is a KeyError. Two texts agree exactly when all that is printed does. For at most three colour indices this determines the representation; beyond it does not: (2,1) and (4,0) both print 15.", "quantifier": "all Dynkin labels and hypercharges", "why_tests_cant": "polynomial integrality for all labels; collisions appear only at dimension 15", "anchors": ["neutrinomass/completions/core.py:Model.format_quantum_numbers"]}
{"id": "C56", "title": "Exotic info and conjugation", "statement": "exotic_info gives every exotic field of the package (indices, charges and class in agreement) its Lorentz letter, colour and isospin labels, baryon number and hypercharge, or those of the conjugate field if the hypercharge is negative. So a field and its conjugate are given the same numbers exactly if the hypercharge is not zero or the colour labels are equal and the baryon number is zero; a neutral quark and its conjugate are told apart.", "quantifier": "every exotic field", "why_tests_cant": "fails only at zero hypercharge", "anchors": ["neutrinomass/completions/core.py:Completion.exotic_info"]}
{"id": "C57", "title": "Field lookup by hypercharge prefix", "statement": "field_options, the lookup of the one-loop search, returns exactly the fields of the database with the same Lorentz letter, colour and isospin whose hypercharge text begins with the text of the hypercharge asked for, whatever their baryon number. So it returns only fields with the hypercharge asked for if that is zero or not an integer (and database denominators have one digit); for other integers it does not: asking for 1 finds 1/2 and 11/6. one_loop_democratic_nums returns exactly the products of the primes of the models all of whose fields are found once, and raises AssertionError exactly if a model with all fields found has a field found twice.", "quantifier": "every database of field strings, every hypercharge", "why_tests_cant": "string prefixes confuse 1 with 1/2, 1/3 and 1/6", "anchors": ["neutrinomass/database/heavyloops.py:field_options", "neutrinomass/database/heavyloops.py:one_loop_democratic_nums"]}
{"id": "C58", "title": "Field queries", "statement": "contains_field with a complete literal field string finds exactly the models with a field that agrees in every entry but the last, of which the given entry is a prefix; with last entry 0 that is exact membership, so no_seesaws keeps exactly the models without the three seesaw strings. It is not exact for other last entries (1 also finds 1/2) and does not recognise conjugated seesaw fields.", "quantifier": "every model with well-formed field strings and every complete field string", "why_tests_cant": "prefix matching versus equality over all strings", "anchors": ["neutrinomass/database/database.py:LazyCompletion.contains_field", "neutrinomass/database/database.py:ModelDatabase.no_seesaws", "neutrinomass/database/database.py:match", "neutrinomass/database/database.py:matches_in"]}
{"id": "C59", "title": "Invariants kept for the table", "statement": "keep_longest_invariants returns the invariants of the last product of fields that has any (none exactly if no product has any), and passes on exceptions. They need not be the longest: the length to beat is never updated.", "quantifier": "every list of products and every result of invariants", "why_tests_cant": "depends on the order of lengths", "anchors": ["neutrinomass/tensormethod/deriv_operators.py:keep_longest_invariants"]}
{"id": "C60", "title": "Subsets enumerates the power set", "statement": "subsets(l) yields each sub-list of l exactly once, 2^n in all.", "quantifier": "every list", "why_tests_cant": "exponential size", "anchors": ["neutrinomass/database/utils.py:subsets"]}
{"id": "C61", "title": "Comparison of interactions under relabelling", "statement": "compare_terms returns a non-empty dictionary exactly if both completions have exotic fields with the same quantum numbers, equally many terms, and after relabelling every exotic field as the last field of the other completion with its numbers each interaction is alike one of the other completion and conversely: the factors can be paired so that both have the same characters apart from signs and generation numbers. A completion whose exotic fields have different numbers is equivalent to itself. A completion with two fields of the same numbers need not be, one without exotic fields never is, and interactions with different index contractions can be taken for the same as characters are sorted within a factor.", "quantifier": "every pair of completions, every text of terms", "why_tests_cant": "several fields with equal quantum numbers; anagrams", "anchors": ["neutrinomass/completions/completions.py:compare_terms", "neutrinomass/completions/completions.py:check_remapping_on_terms", "neutrinomass/completions/completions.py:are_equivalent_completions"]}
{"id": "C62", "title": "Reading completions", "statement": "Reading one file gives every operator named in it with exactly its completions in order. Reading several files gives each operator the completions of the last file that names it; nothing is lost exactly when no operator is named in two files.", "quantifier": "every list of files", "why_tests_cant": "depends on which operator names repeat across files", "anchors": ["neutrinomass/database/database.py:read_completions", "neutrinomass/database/database.py:ModelDatabase.__init__"]}
{"id": "C63", "title": "Right folds and fixed points", "statement": "foldr(f, xs, acc) is the right fold of xs with f starting from acc; without acc it starts from the last element and raises on an empty list. Deviation: fixedpoint(f, x) and multiset_equality(xs, ys) refer to undefined names and raise NameError on every input, so fixedpoint never returns a fixed point.", "quantifier": "every list, function and start value", "why_tests_cant": "all lengths and all functions; whether fixedpoint can return at all is a statement about every input", "anchors": ["neutrinomass/completions/utils.py:foldr", "neutrinomass/completions/utils.py:fixedpoint", "neutrinomass/completions/utils.py:multiset_equality"]}
{"id": "C64", "title": "Inverse prime tables name the fields as read", "statement": "inv_exotic_prime_dict maps the i-th prime to the i-th distinct field (conjugates identified) in the form in which it was first read, and inv_term_prime_dict does the same for interactions; no two entries are the same up to conjugation.", "quantifier": "every database, every enumeration order", "why_tests_cant": "depends on the order of dictionary writes and of set iteration", "anchors": ["neutrinomass/database/database.py:ModelDatabase.__init__"]}
{"id": "C65", "title": "filter_data is not a table of counts", "statement": "The additions made to column j of filter_data are exactly as many as the models removed from operator j (C17), but each addition is 1/len(v) with the momentary length, so the entries are not the numbers of rejected models that the comment in __init__ promises.", "quantifier": "every database (positive part); a concrete database (negative part)", "why_tests_cant": "needs a run in which one operator rejects several models one after the other", "anchors": ["neutrinomass/database/database.py:ModelDatabase.filter_model_by_dimension", "neutrinomass/database/database.py:ModelDatabase.__init__"]}
{"id": "C66", "title": "process composes the steps", "statement": "process() leaves, for each operator (sorted by decreasing scale or increasing dimension), exactly the allowed models that are the first of their content under the operator and contain no allowed model of an operator of larger scale (smaller dimension). Removing duplicates first does not change which models are dominated.", "quantifier": "every constructed database, both philosophies, both criteria, with and without the seesaw filter", "why_tests_cant": "composition of four mutating steps", "anchors": ["neutrinomass/database/database.py:ModelDatabase.process", "neutrinomass/database/database.py:ModelDatabase.order", "neutrinomass/database/database.py:ModelDatabase.filter"]}
{"id": "C67", "title": "filter() needs an explicit order()", "statement": "filter() on a database read from files raises AttributeError whatever the files contain, unless order() ran before; on a database built from given data with the mass criterion it raises TypeError when the first operator has a model.", "quantifier": "every database", "why_tests_cant": "the branch that would order first is unreachable; only visible when filter is called directly", "anchors": ["neutrinomass/database/database.py:ModelDatabase.filter", "neutrinomass/database/database.py:ModelDatabase.__init__"]}
{"id": "C68", "title": "Interaction queries", "statement": "contains_interaction(patterns) holds exactly when some interaction has, for each pattern separately, a field starting with it; two patterns may be answered by the same field.", "quantifier": "every model and list of literal patterns", "why_tests_cant": "all assignments of fields to patterns", "anchors": ["neutrinomass/database/database.py:LazyCompletion.contains_interaction"]}
{"id": "C69", "title": "One-loop Weinberg filter", "statement": "filter_one_loop_weinberg(nums) keeps, at every operator whose scale is below the one-loop scale, exactly the models (in order) whose democratic number has no divisor in nums, and leaves the other operators alone.", "quantifier": "every database, scale table and list of non-zero numbers", "why_tests_cant": "for/else control flow over all lists", "anchors": ["neutrinomass/database/database.py:ModelDatabase.filter_one_loop_weinberg"]}
{"id": "C70", "title": "Conjugation keeps the symmetry of indices", "statement": "The conjugate of a field keeps the list of symmetries of the field, which is the right one for the conjugate exactly when the non-zero Dynkin labels read the same after swapping; for (2,1) the conjugate is declared symmetric in an undotted and a dotted index.", "quantifier": "every field with default symmetry", "why_tests_cant": "fails only for unequal non-zero labels", "anchors": ["neutrinomass/tensormethod/core.py:Field.conj", "neutrinomass/tensormethod/core.py:Field.get_symmetry"]}
{"id": "C71", "title": "Conjugating a derivative and stripping it", "statement": "Conjugation does not conjugate the record of the stripped field: stripping the conjugate of a derivative of f gives a field with the charges and is_conj of the conjugate of f and the Dynkin labels of f, which are those of the conjugate only if f is self-conjugate under Lorentz and colour.", "quantifier": "every field, every chain of derivatives", "why_tests_cant": "needs derivative, conjugation and stripping together", "anchors": ["neutrinomass/tensormethod/core.py:Field.conj", "neutrinomass/tensormethod/core.py:D", "neutrinomass/tensormethod/core.py:IndexedField.strip_derivs"]}
{"id": "C72", "title": "Simultaneous substitution of indices", "statement": "substituted_indices replaces every index by the partner in the last pair that mentions it, all at once (so swapping works), and changes nothing else, if each pair keeps type and height.", "quantifier": "every indexed field, every list of pairs", "why_tests_cant": "chains and swaps of arbitrary length", "anchors": ["neutrinomass/tensormethod/core.py:IndexedField.substituted_indices"]}
{"id": "C73", "title": "Fresh indices of a field", "statement": "Field.fresh_indices gives an indexed field with all attributes of the field, with as many indices of each type and height as the Dynkin labels say, a generation index exactly if there is more than one generation, all names distinct from each other and from every name made before, and labels from which Index makes the same index again.", "quantifier": "every field with Dynkin digits, every state of the counters", "why_tests_cant": "all Dynkin labels and histories of fresh names", "anchors": ["neutrinomass/tensormethod/core.py:Field.fresh_indices", "neutrinomass/tensormethod/core.py:Index.fresh"]}
{"id": "C74", "title": "Operators of a product", "statement": "For a product built from the left by decompose_product with possible irreps at each level, construct_operators returns operators that hold the fields of the product in order, as many free SU(2) indices of each type as the last irrep has (all of them for an ignored type), every colour index uncontracted, and no index twice; their number is the product over the levels of the numbers of contractions. A single field is returned as it is.", "quantifier": "every list of fields with total labels below ten, every sequence of irreps, every set of ignored types", "why_tests_cant": "unbounded length; all irreps", "anchors": ["neutrinomass/tensormethod/contract.py:construct_operators", "neutrinomass/tensormethod/contract.py:contract_su2"]}
{"id": "C75", "title": "Labels of external edges", "statement": "set_external_fields labels every edge that ends in exactly one external node with the label and the counter of the field placed there; an edge between internal nodes gets no label.", "quantifier": "every filled partition with pairwise different nodes, every graph", "why_tests_cant": "all assignments and graphs", "anchors": ["neutrinomass/completions/completions.py:node_dictionary", "neutrinomass/completions/completions.py:set_external_fields"]}
{"id": "C76", "title": "Completing an operator never fails", "statement": "For an operator without derivatives whose gauge indices are all contracted and whose hypercharges add up to zero (two colour epsilons may share an index, as in colour_singlets with overcomplete), placed on any topology the package ships in any of the arrangements distribute_fields gives: the reduction vertex by vertex followed by the contraction of the last vertex raises no exception; it either reports a failed term or returns a Lagrangian with exactly one term for each vertex, every one of which has all indices contracted and hypercharge zero and is renormalisable (three or four scalars, or two fermions and a scalar, no derivatives); the spinor epsilons it collects contract every spinor index of the operator and nothing else; and its terms use every field of the operator exactly once and, for every line inside the diagram, one exotic field and its partner, the exotic fields reported being those of the lines.", "quantifier": "every invariant operator of fields with spin up to one half, every shipped topology, every arrangement", "why_tests_cant": "all operators times 447 topologies times all arrangements; assertions sit in six nested functions", "anchors": ["neutrinomass/completions/completions.py:reduce_partition", "neutrinomass/completions/completions.py:reduce_row", "neutrinomass/completions/completions.py:construct_completion", "neutrinomass/completions/completions.py:exotic_field_and_term", "neutrinomass/completions/topologies.py:get_topology_data"]}
{"id": "C77", "title": "Power counting of mass estimates", "statement": "For a structure of field components with lepton number two, charge and isospin zero that gets an estimate: twice the number of loop factors (loop and loopv2) plus four equals the number of fields plus the number of Yukawa couplings plus twice the number of g2. The number of ye has the parity of the number of eb; the number of yu and yd together that of ub and db; without eb the quark Yukawas have this parity separately.", "quantifier": "every structure", "why_tests_cant": "consequence of every rule at once over unbounded reductions", "anchors": ["neutrinomass/database/closures.py:RULES", "neutrinomass/database/closures.py:neutrino_mass_estimate"]}
{"id": "C78", "title": "Leading estimate and number of loops", "statement": "get_leading_mv returns the first of the estimates with the largest value and raises ValueError exactly if there is none; table_data takes the last one of those with the largest rounded scale and raises IndexError exactly if there is none. loop_data counts the loop factors, and lists 0..m for m factors loopv2, exactly as long as there are at most seven of a kind; beyond seven they count as none. The text of table_data lists all loop orders from the number of loop factors to that plus the number of loopv2 factors.", "quantifier": "every list of estimates, every ordered type of values, all exponents", "why_tests_cant": "ties and order of equal values; exponents beyond the loop bound", "anchors": ["neutrinomass/database/utils.py:get_leading_mv", "neutrinomass/database/utils.py:loop_data", "neutrinomass/database/utils.py:table_data"]}
{"id": "C79", "title": "Field strings up to a mass dimension", "statement": "generate_fieldstrings(max_dim, fields) never raises on scalar, vector and fermion fields with the same charges and returns exactly those first neutral singlets of two or more fields whose mass dimensions (1 for bosons, 3/2 for fermions) add up to at most max_dim, in the order of the number of fields; none of more than max_dim fields is missed.", "quantifier": "every bound and field content", "why_tests_cant": "the number of fields is cut off at max_dim, which must be shown not to lose terms", "anchors": ["neutrinomass/tensormethod/lagrangian.py:generate_fieldstrings", "neutrinomass/tensormethod/lagrangian.py:prod_mass_dim"]}
{"id": "C80", "title": "Topology type of an effective operator", "statement": "EffectiveOperator.topology_type counts the bosons of the operator as n_scalars (vectors too) and the fermions as n_fermions; no field is left out.", "quantifier": "every operator", "why_tests_cant": "counts over all field contents", "anchors": ["neutrinomass/completions/core.py:EffectiveOperator.topology_type"]}
{"id": "C81", "title": "Printed models", "statement": "A Model is printed as the texts of the exotic fields of its first completion, sorted, each once; the text does not depend on the order of iteration over the exotic fields nor on the other completions. Without completions it is an IndexError.", "quantifier": "every model and order of iteration", "why_tests_cant": "depends on the iteration order of dictionaries and sets", "anchors": ["neutrinomass/completions/core.py:Model.exotic_numbers", "neutrinomass/completions/core.py:Model.__repr__"]}
{"id": "C82", "title": "Generated one-loop models", "statement": "generate_models returns exactly the loops of four fields whose SU(2) dimensions 1..7 differ by one between neighbours and the loops of three whose dimensions also couple to a triplet, with the six colour pairs and hypercharges k/6 from -3 to 3. In loops of colour singlets or octets neighbouring fields couple to a doublet with hypercharge 1/2 or -1/2; in loops of triplets or sextets whose first hypercharge exceeds 1/2 no two fields couple, as the tables alternate a colour and its conjugate without conjugating the hypercharge.", "quantifier": "all generated models", "why_tests_cant": "tens of thousands of models, and the tests do not say what a loop is", "anchors": ["neutrinomass/database/heavyloops.py:generate_models", "neutrinomass/database/heavyloops.py:tbl_2_1"]}
{"id": "C83", "title": "Labels of derivative operators", "statement": "remove_unwanted_deriv_structures keeps exactly the products whose differentiated fields have Lorentz labels (1,1), (0,1) or (1,0) and not two derivatives, in order. label_operators gives every operator a label of its own if the keys are distinct and do not end in a letter: the key itself for a single operator, else the key and a letter; more than 26 operators for a key are an IndexError; keys ending in letters can collide and operators are lost.", "quantifier": "all products and dictionaries", "why_tests_cant": "collisions and 27th operators are not tested", "anchors": ["neutrinomass/tensormethod/deriv_operators.py:remove_unwanted_deriv_structures", "neutrinomass/tensormethod/deriv_operators.py:label_operators"]}
{"id": "C84", "title": "Expansion of a product with derivatives", "statement": "proc_term returns every choice of one field for each factor, the possibilities of deriv_possibilities for factors with derivatives, in lexicographic order, without the numbers; the first exception is passed on.", "quantifier": "every product of factors", "why_tests_cant": "exponentially many choices", "anchors": ["neutrinomass/tensormethod/parse_hs.py:proc_term"]}
{"id": "C85", "title": "Distribution of derivatives", "statement": "distribute_derivatives of n derivatives on a product has a term for each way to distribute them over the factors, each exactly once up to exchange of equal factors; parse expands each into the choices of Lorentz labels.", "quantifier": "every product and n", "why_tests_cant": "combinatorial", "anchors": ["neutrinomass/tensormethod/parse_hs.py:distribute_derivatives", "neutrinomass/tensormethod/parse_hs.py:parse"]}
{"id": "C86", "title": "Table of derivative operators", "statement": "Every entry of deriv_operator_names has at least one derivative, hypercharge 0, baryon number 0, lepton number 2 and mass dimension 7 or 9; no two entries have the same key or the same fields and number of derivatives.", "quantifier": "all 22 entries", "why_tests_cant": "data", "anchors": ["neutrinomass/tensormethod/deriv_operators.py:deriv_operator_names"]}
{"id": "C87", "title": "The shipped operators", "statement": "EFF_OPERATORS can be built and has 192 entries under different names; every one consists of Standard-Model fields without derivatives, its isospin indices are contracted in pairs by its epsilons, at most two raised and as many lowered colour indices are left open, no index occurs twice, no two fields are equal, hypercharge is 0, lepton number 2 and mass dimension 5, 7, 9 or 11, and the numbers of its scalars and fermions are those of a shipped kind of topology. DERIV_EFF_OPERATORS has 51 entries with the same field content, mass dimension 7 or 9, at most one derivative on a field and one to three in total.", "quantifier": "all entries of EFF_OPERATORS and DERIV_EFF_OPERATORS", "why_tests_cant": "hand-written data spread over two pickle files and 22 products made at import; the tests look at a few", "anchors": ["neutrinomass/completions/operators.py:EFF_OPERATORS", "neutrinomass/completions/operators.py:DERIV_EFF_OPERATORS"]}
{"id": "C88", "title": "Completions from start to end", "statement": "operator_completions of an operator with contracted isospin and at most five (not three) open pairs of colour indices raises nothing: for every shipped topology of its kind, every arrangement of its fields on it (scalars at scalar legs, fermions at fermion legs) and every colour contraction it either returns a completion or a term vanishes, and it returns nothing else. In each completion every term is a singlet of three or four scalars or of two fermions and a scalar, without derivatives, the terms use every field of the operator once and every exotic field with its partner, the operator has no open index except generation indices, each outer line carries the label and number of its field, each inner line the label of its exotic field. This holds of all 192 shipped operators while fewer than 209 colour indices have been made; after more, the additional contraction of an operator with two open pairs may repeat an index of the operator.", "quantifier": "every such operator, state of the index counters and answer of the simplification", "why_tests_cant": "arrangements grow factorially and the operators of the tests have few topologies", "anchors": ["neutrinomass/completions/completions.py:partitions", "neutrinomass/completions/completions.py:partition_completion", "neutrinomass/completions/completions.py:operator_completions", "neutrinomass/completions/completions.py:construct_completion"]}
{"id": "C89", "title": "Neutrino masses of the shipped operators", "statement": "For every shipped operator, with or without derivatives, parse_operator gives one structure per assignment of the values of its isospin indices, each neutral with lepton number 2; at least one of them is closed to a product of constants, so that neutrino_mass_estimate is not empty and get_leading_mv and table_data return a largest estimate and raise nothing.", "quantifier": "all entries of EFF_OPERATORS and DERIV_EFF_OPERATORS and every numerical valuation of the estimates", "why_tests_cant": "the closures depend on rewriting to a fixed point; names of indices that are substrings of others (operators 80a, 80b, 81c, 81d) are not covered by the general result on parsing", "anchors": ["neutrinomass/database/closures.py:neutrino_mass_estimate", "neutrinomass/database/utils.py:get_leading_mv", "neutrinomass/database/utils.py:table_data"]}
{"id": "C90", "title": "Terms with derivatives", "statement": "process_derivative_term returns a term without derivatives unchanged. Of one with derivatives it removes them and the Lorentz epsilons: with three or more scalars the term is the product of the scalars and the gauge epsilons, or 'Vanishing structure'; otherwise the two exotic fermions, the one exotic fermion and the one other fermion, or with two derivatives the two fermions are contracted by one epsilon over undotted or dotted indices (an exotic fermion enters as the conjugate of its partner), every other field but vectors and every gauge epsilon stays; two fermions of the operator under one derivative and spinors that do not match are 'Not allowed contraction'; nothing else is returned. The result has no derivatives if no field of spin zero had (one that had stays beside the stripped field). check_singlet accepts exactly the terms with a field whose charges other than 3b add up to zero and whose free indices are generation indices; every term of every completion has been accepted by it, with or without derivatives.", "quantifier": "every term, vertex and completion, and every answer of the simplification", "why_tests_cant": "the tests have two operators with derivatives; a wrong factor shows only as a failing assertion in some other topology", "anchors": ["neutrinomass/completions/completions.py:process_derivative_term", "neutrinomass/completions/completions.py:check_singlet", "neutrinomass/completions/completions.py:contract", "neutrinomass/completions/completions.py:construct_completion"]}
{"id": "C91", "title": "Exported tensors and operators are read back", "statement": "Evaluating with the names of database.py what export_tensor writes for a field of the Standard Model or its conjugate, one derivative of such a field, an exotic field, an epsilon or a delta gives the same field or symbol: label, Dynkin labels, charges, flags, symmetry, and the same indices in the same order, written in their printed form. Exotic fields come back in the class of their quantum numbers with their latex, provided no backslash in it begins an escape sequence. What export_operator writes for a product of at least two such tensors evaluates to the product of what is read. The field read equals (==) the original exactly if the indices were given as the printed text (and a real scalar is not conjugated). Three deviations: a barred Dirac fermion is read as unbarred (and still equal); the latex of the fifth fermion symbol, \\theta, is read as a tabulator followed by heta, so the field is not equal to the original; gauge field strengths raise NameError.", "quantifier": "every field, index text, charge and product of any length", "why_tests_cant": "the tests evaluate two exported completions; whether any text survives depends on every character of labels, indices, fractions and latex", "anchors": ["neutrinomass/database/export.py:export_tensor", "neutrinomass/database/export.py:export_operator", "neutrinomass/database/database.py:ExoticField"]}
{"id": "C92", "title": "Exported completions are read back", "statement": "Evaluating what export_completion writes without lazy gives a completion with the same name and topology, the operator, partition and terms of C91, a graph with the same nodes in order and the same edges and attributes, and the set of exotic fields (each once). With lazy it gives at once a LazyCompletion whose head has the operator name, the sorted quantum numbers of the exotic fields and the terms spelled field by field, and whose completion(), when forced, is the same completion, provided no latex of an exotic field contains an escape sequence; otherwise the set of exotic fields read lazily differs from the one read eagerly (\\theta becomes a tabulator followed by heta). The text is written whenever the exotic fields have the class of their quantum numbers and the fields of the terms five Dynkin labels.", "quantifier": "every completion: any operator, tree, graph, set of exotic fields and list of terms", "why_tests_cant": "two levels of quoting: the text is evaluated once for the head and the string inside it a second time; a test shows one nesting of one completion", "anchors": ["neutrinomass/database/export.py:export_completion", "neutrinomass/database/export.py:export_graph", "neutrinomass/database/export.py:export_partition", "neutrinomass/database/export.py:export_terms", "neutrinomass/database/export.py:export_exotics", "neutrinomass/database/database.py:LazyCompletion"]}
{"id": "C93", "title": "Operators of a product of fields", "statement": "unsimplified_invariants of two or more fields goes through the neutral singlets of their product in order (there are none unless the hypercharges sum to zero and the number of indices of each SU(2) type is even) and returns for each of them the operators that its way through the irreps admits, at least one, their number being the product of the numbers of contractions on the way. Each consists of exactly the given fields in order; of each SU(2) type that is not ignored no index is left, of those ignored all are. If colour is not ignored, raised and lowered colour indices are joined by deltas in every possible way when there are as many of each (with one more operator with two epsilons for three and three). Deviations: with three raised or three lowered colour indices and none of the other kind, besides the operator with an epsilon there are copies in which no colour index is contracted (six, or one), and other numbers raise ValueError exactly if the product has a neutral singlet. The shared stack is empty afterwards in every case. One field raises TypeError, no field ValueError, different charges AssertionError.", "quantifier": "every list of simple fields with a total of at most nine indices of each SU(2) type and of colour, every choice of ignored types, every state of the counters, every product of irreps that obeys the selection rules", "why_tests_cant": "the tests count invariants of a few products; whether every invariant is contracted depends on every step of the product and the numbers of indices", "anchors": ["neutrinomass/tensormethod/contract.py:unsimplified_invariants", "neutrinomass/tensormethod/contract.py:construct_operators", "neutrinomass/tensormethod/contract.py:colour_singlets"]}
{"id": "C94", "title": "Duplicates and relabellings", "statement": "clean_operators keeps, in order, the operators that do not simplify to zero and of those that simplify to the same one the first. extract_relabellings lists for each of the n! ways to match the n pairs of indices of x with those of y what has to be renamed; doing that at once turns the pairs into those of y (if no index occurs twice); a symbol without exactly two indices raises ValueError. remove_relabellings removes an operator exactly if for some operator before it (kept or not) the invariant symbols of each type can be matched such that every renamed pair consists of two free indices, or of two indices of fields of which there are at least two with the same head. Without invariant symbols, or if two operators are equal up to a coefficient, it raises TypeError; after clean_operators the latter cannot happen if equal operators simplify to the same. Deviations: operators removed need not be related to one that is kept (two different contractions of L L L eb H), and operators that differ by the order of two equal fields are both kept if an index would have to change sides within its pair.", "quantifier": "every list of operators, every simplification, every form in which sympy keeps the factors", "why_tests_cant": "the tests count invariants for a few products of fields; which operators are dropped depends on all permutations of all structures", "anchors": ["neutrinomass/tensormethod/contract.py:clean_operators", "neutrinomass/tensormethod/contract.py:extract_relabellings", "neutrinomass/tensormethod/contract.py:compare_singlets", "neutrinomass/tensormethod/contract.py:is_identity_mapping", "neutrinomass/tensormethod/contract.py:remove_relabellings", "neutrinomass/tensormethod/contract.py:invariants", "neutrinomass/tensormethod/core.py:Operator.by_structures", "neutrinomass/tensormethod/core.py:Operator.duplicate_fields"]}
{"id": "C95", "title": "The terms of a Lagrangian", "statement": "npoint_terms(n, fields) goes through all choices of n of the fields and their conjugates, in order and each choice once, and returns the operators of each (C93). generate_uv_terms returns those of three and of four fields whose dimension is at most four, of equivalent ones the first, and of these the ones that are not zero and contain an exotic field or its conjugate. So every term returned is made of three or four scalars or of one scalar and two spinors, has hypercharge zero and no free SU(2) index, contains an exotic field, and no two are equivalent; and every product of three or four fields with a neutral singlet, dimension at most four and an exotic field is the content of some term returned, if equivalence does not identify terms of different fields. If no field is a colour sextet or octet the call succeeds. Deviations: a term may have colour indices left (the coupling of a diquark to two quark doublets is also returned uncontracted); with sextets or octets the call raises ValueError if any product of three or four fields, of whatever dimension, has a singlet that cannot be constructed, although terms of dimension above four are dropped (a colour-octet fermion with three antiquarks); after npoint_fieldstrings was called, whatever its arguments, exotic fields without the charge l make the call an AssertionError, since lepton number was written into the global Standard Model fields. generate_full replaces the terms of a Lagrangian by these and the mass terms, so that its attribute terms has the mass terms twice; doing it again changes nothing.", "quantifier": "every list of Standard Model and exotic fields of spin zero or one half with at most two colour and isospin indices and equal kinds of charges, every state of the counters, every product of irreps that obeys the selection rules, every notion of equivalence and of being zero", "why_tests_cant": "the tests do not call these functions; which terms appear depends on all products of all fields", "anchors": ["neutrinomass/tensormethod/lagrangian.py:npoint_terms", "neutrinomass/tensormethod/lagrangian.py:generate_uv_terms", "neutrinomass/tensormethod/lagrangian.py:Lagrangian.generate_full", "neutrinomass/tensormethod/lagrangian.py:contains"]}
{"id": "C96", "title": "JSON objects and lines of a diagram", "statement": "The JSON object of an exotic field determines its label, Dynkin labels, symmetry, charges, generations, statistics, LaTeX, conjugation, bar and, for each index type, the printed indices in order, and nothing else; for fields made by the completion program it also determines the class. The object of another field determines the label without dagger and derivative, conjugation, number of derivatives (at most one, else there is no object), the irrep under a derivative and the printed indices; that of an epsilon or delta its printed indices and whether it is a colour delta. Operators are lists of these, with an object exactly if every tensor has one. Deviations: a real and a complex scalar can have the same object, and two fields with their indices in a different order that are unequal have the same object; the object of a completion and the body of its diagram raise AttributeError as soon as the graph has an edge, since the edges carry the text of a field and not the field. The line of a field in a diagram depends only on its class, conjugation and spin; fields of integer non-zero spin have none.", "quantifier": "every field, tensor, operator and completion", "why_tests_cant": "the tests do not call these functions; whether an object loses information is a statement about pairs of fields", "anchors": ["neutrinomass/database/json_serialiser.py:export_tensor", "neutrinomass/database/json_serialiser.py:export_completion", "neutrinomass/completions/tikzfeynman.py:tikz_type", "neutrinomass/completions/tikzfeynman.py:proc_body"]}
{"id": "C97", "title": "The Hilbert series", "statement": "Every term of the shipped series H6, H7_LNV, H9_LNV and H11_LNV is a product of Standard Model fields and derivatives of the dimension of the series, with hypercharge and triality zero and even numbers of doublets and of spinor indices, and in the last three with lepton number two and baryon number zero. Without field strengths the series are complete: a product of fields and derivatives occurs if and only if it conserves these quantities and, if it has no derivatives, its Higgs doublets can be combined with the other doublets; H11_LNV has no derivatives. For three generations no term cancels, so that the series have one term for each product, and parse returns exactly the lists of fields that arise by placing the derivatives and choosing spinor labels, each with hypercharge zero. Every shipped operator has the product of a term of these series (apart from the Weinberg operator); those with derivatives are exactly the products with derivatives and without field strengths of H7_LNV and H9_LNV; and every product without derivatives and field strengths is that of a shipped operator times at most three factors H H^dagger or Yukawa couplings. Deviations: the coefficients do not count operators, since signs are spurious (in each series some are negative: two lepton doublets, two Higgs doublets and B have -n(n+1)/2 instead of n(n-1)/2); H6 is a tuple, on which parse raises AttributeError.", "quantifier": "every product of fields and derivatives", "why_tests_cant": "completeness is a statement about all products; no test compares the series with the conservation laws or with the shipped operators", "anchors": ["neutrinomass/tensormethod/hs.py:H6", "neutrinomass/tensormethod/hs.py:H7_LNV", "neutrinomass/tensormethod/hs.py:H9_LNV", "neutrinomass/tensormethod/hs.py:H11_LNV", "neutrinomass/tensormethod/parse_hs.py:parse", "neutrinomass/tensormethod/parse_hs.py:FIELD_LOOKUP"]}
{"id": "C98", "title": "Completions of operators with derivatives", "statement": "deriv_operator_completions acts with the derivatives of an operator on different fields in every possible way, each way once, keeps the operators that sympy does not simplify to zero and returns the completions of each of them, one after the other; this holds for all 51 derivative operators that the package ships. Every completion has the fields and symbols of the operator it was found for and further symbols only, the graph of one of the topologies, and terms that pass the check for singlets; if the search raises, then it does for one of these operators. Which terms sympy finds to vanish can only remove completions, it changes none, and every term of a completion but the last is known not to vanish or to have no repeated field. Deviations: the last term of a completion is not tested when it has no derivatives, so that D2a has a completion with the coupling S H^i H^j eps_ij, which is zero; if the last term has derivatives and vanishes the search ends with NameError; a plain Operator gives AttributeError; the general function completions always raises NameError.", "quantifier": "every operator, every answer of sympy, every list of topologies", "why_tests_cant": "the number of operators, diagrams and answers of sympy is not bounded; no test runs the search on an operator with derivatives", "anchors": ["neutrinomass/completions/completions.py:deriv_operator_completions", "neutrinomass/completions/completions.py:completions", "neutrinomass/completions/completions.py:collect_models", "neutrinomass/completions/completions.py:construct_completion", "neutrinomass/completions/completions.py:operator_completions"]}
{"id": "C99", "title": "LaTeX of an operator", "statement": "Operator.latex prints the fields first, ordered by the first character of the label after the derivatives (L, e, Q, u, d, H, B, W, G, then others), fields of the same rank in the order of the operator, and then the epsilons and deltas in alphabetical order. Every field has its name, with a tilde or a dagger on conjugates, and the letters of its indices. The k-th name of a type in the order of printing has the k-th letter of that type, so two printed indices have the same letter exactly if they have the same name and type: the contractions can be read off. It prints exactly if there are enough letters of every type (8 for colour, 17 for isospin, 23 for spinors). All 243 shipped operators are printed, and no two of them are printed alike. Deviations: the order of the indices of a symbol, so the sign, is not printed, nor are generation indices; a field whose label has more than one character after the derivatives and is not named after a field of the standard model, as exotic fields have, raises ValueError; ignoring a type of index that is on a symbol, generation indices, or a type twice raises KeyError; a ninth colour index raises IndexError.", "quantifier": "for all operators with indices of the documented form, no printed index on two fields and heights opposite where a symbol shares an index with a field, and for all lists of ignored types", "why_tests_cant": "tests print a few operators; that the letters identify the indices for every operator, and when the lists of letters run out, needs an invariant over the mutable dictionary and lists", "anchors": ["neutrinomass/tensormethod/core.py:833-860", "neutrinomass/tensormethod/core.py:1108-1176", "neutrinomass/tensormethod/utils.py:7-33"]}
{"id": "C100", "title": "Mixing matrices and couplings", "statement": "UnitaryMatrix gives a unitary matrix for all real parameters whose cosines and sines satisfy c^2 + s^2 = 1 and for all real phases, for numpy and for sympy alike, in particular for PMNS and CKM as shipped; for numpy get_dagger is the adjoint and the inverse. The couplings x(xi, m0) and Z(xi, m0) of the flavour anomalies reproduce the neutrino data for every non-zero xi and m0: m0 (x Z^T + Z x^T) is the mass matrix U* diag(0, MV2, MV3) U^dagger, and it is diagonalised by U. The coupling z22 of run_point satisfies z22 w22 + z23 w32 = Z[1]. Deviations: the parameters are not checked, so that a cosine and a sine that belong to no angle give a matrix that is not unitary; get_dagger raises AttributeError for a sympy matrix.", "quantifier": "for all numbers of a field with an involution, an imaginary unit, an exponential and square roots, for all parameters, masses, xi and m0", "why_tests_cant": "tests evaluate floating-point numbers at a point; the identities hold for all parameters and phases", "anchors": ["neutrinomass/analysis/utils.py:22-104", "neutrinomass/analysis/utils.py:109-138", "neutrinomass/analysis/flavour_anomalies.py:7-26", "neutrinomass/analysis/flavour_anomalies.py:47-48"]}
{"id": "C101", "title": "Operators of the SMEFT module", "statement": "generate_operators(max_dim, fields) of tensormethod/smeft.py returns, in the order of the number of fields and of the combinations, exactly the uncharged singlets among the products of at least two of the fields whose mass dimension is at most max_dim. Every multiset of fields of total dimension at most max_dim is covered by one combination, with all its singlets, and every operator returned has fields of the list, charges that are the sum of theirs and a dimension within the limit. Importing the module changes of the global fields only the charge L, and with FIELDS as it is after the import the function succeeds. Deviations: after any call of npoint_fieldstrings of lagrangian.py the function raises AssertionError on FIELDS, because only the six unconjugated fields get the charge l; and the operators are not only those with Delta L = 2, as the module says: H H^dagger is always among them.", "quantifier": "for all max_dim, all lists of fields with the same charges and dimension at least one, all tables of irrep products", "why_tests_cant": "tests look at one max_dim and one list of fields; exactness and completeness concern all of them, and the failure depends on what was called before", "anchors": ["neutrinomass/tensormethod/smeft.py:14-59"]}
{"id": "C102", "title": "Vertices with derivatives", "statement": "contract of two or three fields some of which have derivatives makes the exotic field, the partner and the interaction as without derivatives (C40), and what it returns is what process_derivative_term (C90) makes of that interaction, checked again to be a singlet: a reason instead of a term if the table of Lorentz contractions excludes it, if the interaction or the term vanishes, or if the contraction is not allowed. For fields of the operator with or without derivatives and exotic fields (Majorana fermions without colour), no two fermions with the same spinor index, it raises nothing but what the table of Lorentz contractions raises, and the term returned is a neutral singlet without derivatives of the same fields (each with its derivative taken off, the Higgs doublets included) and the same exotic field, with one epsilon for the two fermions. Deviation: with three fermions, one of which has the derivative, it raises AssertionError instead of excluding the vertex.", "quantifier": "for all lists of two or three fields with derivatives and of low spin without, all gauge epsilons on distinct indices, all states of the symbol lists with symbols left, all answers of the simplification", "why_tests_cant": "tests contract a handful of vertices; that no other one raises or returns a term that is no singlet concerns all fields and contractions", "anchors": ["neutrinomass/completions/completions.py:564-649", "neutrinomass/completions/completions.py:652-728"]}
{"id": "C103", "title": "The table of operators for the paper", "statement": "print_paper_table prints one row for every label of operator_latex in order: the label with its trailing p's (up to three) as primes, the LaTeX, the number of models of the label in models.p and in the database (both empty for labels that are not in models.p), and the loops and the scale of the operator with the label; a row is missing only if table_data raises. For every label of an operator of the package the LaTeX shows that operator: it has the same fields, with the same derivatives, and the epsilons join the same of them, where a factor O_x stands for what the row x shows. Deviations: the rows 27d and 59c show another contraction, 32e and 32f lack an epsilon, in D15 the derivative stands at another field; the labels 1ppp, D1, D11, D19a, D19b and D19c have no operator in the package, and their rows repeat loops and scale of the last operator before (1pp, 82, D10c, D18f); the operator D13c has no row.", "quantifier": "for all numbers of models, all results of table_data; for all 248 rows and all 243 operators of the package", "why_tests_cant": "the tests do not touch the table; that LaTeX written by hand agrees with pickled operators concerns the meaning of each row", "anchors": ["neutrinomass/database/operators.py:12-790", "neutrinomass/completions/operators.py:25-122"]}
{"id": "C104", "title": "The lists of operators are complete", "statement": "Every operator of EFF_OPERATORS and of DERIV_EFF_OPERATORS is a product of fields in which epsilons join the isospin doublets in pairs, never two H or two H† without derivative (such a contraction is zero). For the fields of each of them, every product of this kind, up to the order of the factors, is in the same dictionary, under exactly one label; no two labels have the same operator. For every entry of the list of field contents in tensormethod/lnv.py there are operators in EFF_OPERATORS with these fields, and they are the ones whose label is the number of the entry, perhaps with one letter other than p.", "quantifier": "for all 192 and 51 operators, and for all ways of joining the doublets among their fields", "why_tests_cant": "the tests look at single operators; that none of the possible contractions is missing or listed twice is a statement about all pairings of up to eight doublets for each field content, up to exchange of equal fields", "anchors": ["neutrinomass/completions/operators.py:18-122", "neutrinomass/tensormethod/lnv.py:5-86"]}
{"id": "C105", "title": "Every contraction is constructed", "statement": "For two or more fields with at most one index of each SU(2) type that is not ignored, every operator unsimplified_invariants constructs joins, for each of these types, all fields that have an index of it in pairs by metrics, each field once, and has no other symbols before colour indices are contracted. Conversely every way to choose such pairs, one for each type, is constructed at least once, provided the product of irreps is complete, the hypercharges add up to zero, and the product of the colours and of the labels of the ignored types contains a singlet. It may be constructed more than once (six isospin doublets give 21 operators for 15 contractions).", "quantifier": "for all fields of this kind, all sets of ignored types, all states of the counters, and all pairings", "why_tests_cant": "completeness quantifies over all pairings of any number of fields; a test shows that some contractions are found for some fields, not that the recursion through intermediate irreps misses none", "anchors": ["neutrinomass/tensormethod/contract.py:127-208", "neutrinomass/tensormethod/contract.py:220-271", "neutrinomass/tensormethod/core.py:1238-1256"]}
{"id": "C106", "title": "Every tree diagram is considered", "statement": "For each of the fourteen kinds of operators with topologies (n scalars, m fermions), the shipped topologies are tree diagrams with these legs and vertices of three or four scalars or of a scalar and two fermions, no two of them are the same diagram, and every tree diagram with an inner line is one of them. So for every tree diagram whose legs are the fields of an operator, and every contraction of its colour indices, operator_completions returns a completion drawn like this diagram unless a term vanishes; in particular for all shipped operators. Deviations: the vertex of four scalars by itself is not among the topologies, and operators of other kinds (four scalars and four fermions) raise although they have diagrams.", "quantifier": "for all tree diagrams (trees of any shape with these legs, in any drawing), all shipped topologies, all operators with contracted isospin and at most five (not three) open pairs of colour indices", "why_tests_cant": "completeness of the topology files quantifies over all trees up to redrawing; a test can compare the number of files, not show that no diagram is missing or listed twice", "anchors": ["neutrinomass/completions/topologies.py:56-82", "neutrinomass/completions/topology_data", "neutrinomass/completions/completions.py:117-130", "neutrinomass/completions/completions.py:206-268"]}
{"id": "C107", "title": "What the exchanged fields carry", "statement": "In every completion of an operator (without derivatives, invariant under the gauge group, each field with at most one colour and one isospin index) the exotic fields are the inner lines of the diagram, one for every inner tuple of the partition: the field of a line has as hypercharge the sum of the hypercharges of the fields beyond the line, spin zero or one half with the right parity, and exactly those isospin and colour indices that are contracted across the line: the indices of the fields beyond it, and of the epsilons with two or more indices on these fields, that have no counterpart among them. In particular there is one isospin index per isospin epsilon with one index on either side, and fields that carry what flows from the same fields have the same quantum numbers in whichever diagram they appear. This holds for all completions of all shipped operators. Deviation: for the colour indices it needs that no colour epsilon is contracted with another one; with the chained epsilons that colour_singlets(overcomplete=True) adds, a line from the same three fields carries two raised indices or one lowered index, depending on the order in which the fields are joined.", "quantifier": "for all invariant operators, topologies, arrangements of the fields, and for every inner line and every exotic field of the completion", "why_tests_cant": "the quantum numbers of an exotic field come out of a recursion that contracts indices vertex by vertex; that the result depends only on which fields are beyond the line is a statement about all trees and all contractions", "anchors": ["neutrinomass/completions/completions.py:397-447", "neutrinomass/completions/completions.py:466-763", "neutrinomass/completions/completions.py:766-916"]}
{"id": "C108", "title": "The tables of models", "statement": "The script database/pickler turns whatever completions it reads into two tables, if the fields are well formed, every operator occurring has estimates (one of them positive), dimension and derivatives, and the completions have topologies. unfiltered.p has exactly one row for every completion, in the order of reading, all columns of the same length: it names the operator and the printed completion, the democratic and the stringent number of the model, the topology, the dimension and the number of derivatives of the operator, the first of its estimates with the largest value together with that value, the least and the greatest number of loops that this estimate allows, and the numbers of scalars and fermions. democratic.p (unless the lookup of the one-loop models fails, in which case it is not written but the other three files are) has exactly those rows of unfiltered.p that are the first of their operator with their democratic number, whose number is divided by the number of no row of a higher scale, and which, if below the one-loop scale, are divided by the number of no one-loop model; they come by decreasing scale, and no number occurs twice for an operator. Deviation: estimates with more than seven factors loop (or loopv2) count as if they had none.", "quantifier": "for all completions read, tables of operators, enumerations of sets and values of estimates", "why_tests_cant": "the contents of the tables follow from the composition of reading, sorting, numbering, estimating and three filters on all models at once", "anchors": ["neutrinomass/database/pickler:27-76", "neutrinomass/database/pickler:103-131", "neutrinomass/database/database.py:425-450", "neutrinomass/database/database.py:293-303"]}
{"id": "C109", "title": "Baryon number through a completion", "statement": "In every completion that operator_completions returns for a shipped operator, every exotic field has as charge 3b the sum of the charges 3b of the fields beyond its line of the diagram, whatever the topology and the order in which the fields are joined, and in every term of the Lagrangian the charges 3b add up to zero (check_singlet looks at the hypercharge only). The same holds for every completion of an invariant operator in which no group of fields is neutral in hypercharge but has baryon number; the operator itself then conserves it. Deviation: without this condition, which all shipped operators meet, it fails: for two conjugate up and four conjugate down quarks a right-handed Majorana fermion gets the opposite of the baryon number that flows, its partner gets none, and a term that violates baryon number is returned without an exception.", "quantifier": "for all invariant operators and partitions, and all completions of all shipped operators", "why_tests_cant": "the charges are computed vertex by vertex and no check looks at 3b; the failure needs an operator in none of the lists", "anchors": ["neutrinomass/completions/completions.py:450-464", "neutrinomass/completions/completions.py:466-560", "neutrinomass/completions/core.py:163-227"]}
{"id": "C110", "title": "The script for dimension nine", "statement": "completions/d9.py works through the operators in the order of the list up to the first one of dimension eleven or more and collects what operator_completions finds by the dimension of the operator. Deviations: in the shipped list operator 21a ends the loop, so that nine operators of dimensions seven and nine behind it (61a, 61b, 71, 76, 77, 78, 1p, 8p, 1pp) are not worked on; the name filtered_models is not bound, so the script always ends with a NameError; and in a namespace where it is bound, the models of each dimension are compared with those kept for the dimension before only, so a model for dimension nine is kept although it contains a model for dimension five, if those for dimension seven that contain it were dropped for the same reason.", "quantifier": "for all lists of operators, results of operator_completions and namespaces; the list of shipped operators", "why_tests_cant": "there is no test of the script, and it runs for days before it fails", "anchors": ["neutrinomass/completions/d9.py:12-29"]}
{"id": "C111", "title": "Numbering the free indices", "statement": "Operator.fill_free_indices(op) keeps the tensors, their order and every index that is summed over, and replaces the free indices of each type by the first numbers, from zero, in the order in which they stand, at the same height. Two operators in which no summed index has one of those names come out equal exactly when they differ by the names of their free indices only; this holds for every operator with no type of index that is in part free and in part summed. So clean_operators, which simplifies what comes out, never keeps two operators that differ by the names of the free indices, and of every operator that does not vanish it keeps one with the same canonical form. Deviation: nothing is done about a summed index that already has one of the names: H^a P^b eps(a c) and H^a P^b eps(b c) then come out as the same product with one index in three places, and clean_operators drops one of them.", "quantifier": "for all operators in which no index stands in two places, all lists of them, and whatever sympy's canonical forms are", "why_tests_cant": "a test tries a few names of indices; that no names are confused is about all of them", "anchors": ["neutrinomass/tensormethod/core.py:1030-1033", "neutrinomass/tensormethod/core.py:1072-1090", "neutrinomass/tensormethod/contract.py:370-381"]}
{"id": "C112", "title": "Completions violate what the operator violates", "statement": "In the terms of a completion every field of the operator stands exactly once, and every inner line stands exactly twice: once as the exotic field and once as what it couples to there, its conjugate (complex scalar), its Dirac partner (label with ~) or itself (real scalar, Majorana fermion). Nothing else stands in the terms, there is one term more than there are lines, and the exotics of the completion are the fields of these lines. So for every charge of the fields that their masses conserve (opposite for conjugates and Dirac partners, zero for real fields) the charges of the terms add up to the charge of the operator: if the terms conserve it then so does the operator. In particular every completion of every shipped operator violates lepton number by two units in total, whatever lepton number its exotic fields are given, so each model has a term that violates it.", "quantifier": "for all partitions of fields without derivatives, all epsilons and diagrams, all charges; for all shipped operators and all their completions", "why_tests_cant": "a test adds up the charges of a few models; here it is all models and all ways to assign the charge to the exotic fields", "anchors": ["neutrinomass/completions/completions.py:466-561", "neutrinomass/completions/completions.py:652-728", "neutrinomass/completions/completions.py:766-920"]}
{"id": "C113", "title": "Estimates of the neutrino mass and the scale of new physics", "statement": "An estimate is v²/Λ times its factors with the numbers of closures.py put in. It is positive and falls strictly with Λ, so it exceeds the measured mass 5e-11 GeV exactly for the Λ below one scale: the equation of numerical_np_scale_estimate has at most one positive solution, and numerical_mv(e) > 5e-11 exactly if that solution is above 1 TeV. From Λ = 175 GeV on an estimate with further factors is smaller, so its scale is not above that of one whose scale exceeds 175 GeV, and no estimate has a scale above that of the Weinberg operator. For every shipped operator except 37 and 59c the estimate get_leading_mv returns, which is largest at 1 TeV, has also the largest scale, so the scale table_data prints is the scale of the leading estimate. (Restated: for 37 and 59c it is not; at 42 GeV another of their estimates exceeds the measured mass and the leading one does not, because v²/Λ² is not small there.)", "quantifier": "for all estimates, all Λ, all values of the loop factor in [0.006332, 0.006333]; for all 243 shipped operators", "why_tests_cant": "a test evaluates single estimates; that two functions of the code agree on which estimate leads is a statement about all Λ", "anchors": ["neutrinomass/database/closures.py:296-334", "neutrinomass/database/utils.py:13-26", "neutrinomass/database/utils.py:41-53"]}
{"id": "C114", "title": "The number of loops in the table of operators", "statement": "table_data sorts the estimates of an operator by their scale rounded to hundredths of a TeV and takes the last. For every shipped operator except fourteen, the estimate it takes has the same factors as the one get_leading_mv returns, so the number of loops it prints is that of the leading estimate. (Restated: not for all. 37 and 59c have a leading estimate whose scale is not the largest, see C113. For 21b, 28i, 30b, 32c, 32e, 64a, 64d, 71, 77, 78, 71p and 78p a smaller estimate rounds to the same scale and stands later in the list; the table shows its number of loops, such as 3 in place of 2,3, and its scale.)", "quantifier": "for all 243 shipped operators, all loop factors between 0.006332573977646110 and 0.006332573977646112 and every way to round the scales to the nearest hundredth", "why_tests_cant": "a test compares a few rows; here rounding and the order of the list decide, for every operator and without computing the roots of the equations", "anchors": ["neutrinomass/database/utils.py:13-53", "neutrinomass/database/closures.py:296-334"]}
{"id": "C115", "title": "Operators with a further pair of Higgs fields", "statement": "The operators 1p, 1pp, 7p, 8p, 8pp, 71p, 77p, 78p, 79a, 80a, 80b, 81a and 81b have the fields of 1, 1p, 7, 8, 8p, 71, 77, 78, 61a, 5a, 5b, 6a and 6b, one Higgs field and one conjugate Higgs field. The scale of new physics of their leading estimate is strictly lower than that of the operator without the pair, so ordering the operators by mass puts them later. (Restated: not for 76 and 76p. At 30 GeV the leading estimate of 76p exceeds the measured mass and that of 76 does not, because the factor for the pair, loop + v²/Λ², is above one there.)", "quantifier": "for all pairs of shipped operators of which completions/operators.py makes one out of the other and the pair; for all Λ and all loop factors between 0.006332573977646110 and 0.006332573977646112", "why_tests_cant": "a test compares printed numbers; the statement is about the functions of Λ", "anchors": ["neutrinomass/completions/operators.py:100-122", "neutrinomass/database/utils.py:13-26", "neutrinomass/database/closures.py:262-334"]}
{"id": "C116", "title": "Simplifying terms with fields without indices", "statement": "Operator.safe_simplify answers as Operator.simplify does unless that raises IndexError. Then, provided sympy's answers for products of indexed tensors are right, its answer is right too: 0 exactly if the operator is zero, and otherwise an operator that stands for the same; an operator of which no tensor has an index is returned as it is. It raises only if sympy raises something else for the operator, or raises for the product of the tensors that have indices. So vanishing couplings are recognised also in terms with singlet fields.", "quantifier": "for all operators, all answers and failures of sympy, and all meanings of operators in which a tensor without indices is a factor that is not zero", "why_tests_cant": "a test runs one version of sympy on a few terms; here the failures are arbitrary", "anchors": ["neutrinomass/tensormethod/core.py:1030-1062"]}
