{"id": "C01", "title": "Scalar wire encodings round-trip and announce their exact size", "statement": "For every scalar the binary format carries (unsigned and enum values of 16/32/64 bits as variable-length integers, signed 16/32/64-bit integers, 8-bit integers, hashes, doubles and fixed 64-bit sizes as little-endian words, handles), decoding the bytes the encoder produced, followed by any other bytes, returns exactly the value that was encoded and leaves exactly the other bytes; the size function returns exactly the number of bytes the encoder writes.", "quantifier": "every value of every scalar type and every trailing byte string", "why_tests_cant": "2^64 values per type; tests only sample a handful and never the tail-independence", "anchors": ["src/cconfigspace_internal.h: CCS_COMPRESSED_SERIALIZER, CCS_COMPRESSED_DESERIALIZER, ccs_zigzag_encode_int64, ccs_zigzag_decode_int64, CCS_SERIALIZER, CCS_DESERIALIZER, ccs_bswap_uint64"]}
{"id": "C02", "title": "Encoders never write past the space they were given", "statement": "Every encoder (scalars, strings, blobs, intervals, datums) given a buffer of n bytes either succeeds having written exactly its announced size, which is at most n, or reports NOT_ENOUGH_DATA; it succeeds whenever the announced size fits, and it never writes outside the buffer.", "quantifier": "every value and every buffer length, in particular every length smaller than needed", "why_tests_cant": "the failure only shows for particular short lengths in the middle of nested encodings and out-of-bounds writes are silent", "anchors": ["src/cconfigspace_internal.h: _ccs_serialize_bin_string, _ccs_serialize_bin_ccs_blob, _ccs_serialize_bin_ccs_interval, _ccs_serialize_bin_ccs_datum, CCS_COMPRESSED_SERIALIZER"]}
{"id": "C03", "title": "Truncated input is always detected", "statement": "Decoding any strict prefix of a valid encoding of a scalar, string, blob, interval or datum reports NOT_ENOUGH_DATA; no prefix decodes successfully to some other value and nothing beyond the prefix is read.", "quantifier": "every value and every cut point", "why_tests_cant": "the number of (value, cut point) pairs is unbounded and over-reads are silent in tests", "anchors": ["src/cconfigspace_internal.h: CCS_COMPRESSED_DESERIALIZER, _ccs_deserialize_bin_string, _ccs_deserialize_bin_ccs_blob, _ccs_deserialize_bin_ccs_interval, _ccs_deserialize_bin_ccs_datum"]}
{"id": "C04", "title": "What decoding arbitrary bytes gives", "statement": "Whatever bytes are supplied, what the decoders of numbers, hashes, floats, strings, blobs, user data, intervals, values, handles and headers do is determined by the bytes: the value read and the bytes left, or the error code. Too few bytes are NOT_ENOUGH_DATA, an unknown kind of value is INVALID_TYPE, a wrong tag or version INVALID_VALUE. A number written with superfluous groups decodes modulo its width. Behaviour is undefined in exactly three cases: a number of more than 5 groups (32 bits) or 10 groups (64 bits), a string whose terminator is nowhere in the rest of the buffer, user data announced longer than the rest of the buffer.", "quantifier": "every byte string", "why_tests_cant": "hostile or corrupted input is an unbounded space; the offending inputs (an 11-byte varint, a string without a terminator, a user-data length larger than what is left) are never produced by the library itself", "anchors": ["src/cconfigspace_internal.h: CCS_COMPRESSED_DESERIALIZER, _ccs_deserialize_bin_string, _ccs_object_deserialize_user_data"]}
{"id": "C05", "title": "Typed values (datums) round-trip through the wire format", "statement": "Serialising a datum of any kind (a string that is there, not a NULL pointer) and deserialising it yields a datum of the same kind holding the same value (same integer, same double bit for bit, same truth value, same characters, same handle); only strings come back flagged transient and handles flagged as identifiers; the announced size is the number of bytes written. A NULL string is undefined behaviour when saved.", "quantifier": "every datum of every kind and every trailing byte string", "why_tests_cant": "all strings, all doubles including NaN payloads, all integers", "anchors": ["src/cconfigspace_internal.h: _ccs_serialize_bin_ccs_datum, _ccs_deserialize_bin_ccs_datum, _ccs_serialize_bin_size_ccs_datum"]}
{"id": "C06", "title": "Parameters round-trip through serialisation", "statement": "For every parameter that can be created (numerical int/float with any bounds, quantization and default; categorical, ordinal and discrete with any value list and default; string), serialising and deserialising it yields a parameter with the same kind, name, domain and value order. The default of a numerical or string parameter is restored exactly; the default of a categorical, ordinal or discrete parameter is restored as the last declared value that ccs_datum_cmp does not distinguish from it, hence exactly unless another declared value is confused with it (0.0 and -0.0, or a NaN).", "quantifier": "every parameter accepted by a constructor", "why_tests_cant": "domains, names and value lists are unbounded; the failing case (default identified with another value by numeric comparison) needs a specific pair of values", "anchors": ["src/parameter_deserialize.h: _ccs_deserialize_bin_parameter", "src/parameter_internal.h: _ccs_serialize_bin_ccs_parameter_common_data", "src/parameter_categorical.c: _ccs_serialize_bin_ccs_parameter_categorical_data", "src/parameter_numerical.c"]}
{"id": "C07", "title": "Expressions of any shape round-trip through serialisation", "statement": "For every expression that can be built (any depth, any arity, any literals but NULL strings, any variables, any user data), the bytes written are exactly the documented form of the tree and as many as announced (and NOT_ENOUGH_DATA is reported for shorter buffers); deserialising them yields the tree with the same operators, literals and variables in the same places (variables mapped through the handle map of the options), consuming exactly these bytes; a truncated buffer is reported if no user data is involved.", "quantifier": "every expression tree", "why_tests_cant": "trees are unbounded in depth and width", "anchors": ["src/expression.c: _ccs_serialize_bin_ccs_expression_data", "src/expression_deserialize.h: _ccs_deserialize_bin_expression_general"]}
{"id": "C08", "title": "Trees of any shape round-trip through serialisation", "statement": "For every tree built by create, set_child, set_weight, set_bias, set_user_data and releases (any arity, depth, missing children, weights, biases and values), serialisation writes exactly its wire format and announces its exact size; deserialising those bytes, whatever follows them and whatever trees already exist, yields a root of the same shape, with bit-identical values, own weights and biases and the same user data at every node (empty user data becoming none), consistent sampling weights, and leaves the other trees alone. Truncated input of a tree without user data is refused.", "quantifier": "every tree", "why_tests_cant": "trees are unbounded", "anchors": ["src/tree.c: _ccs_serialize_bin_ccs_tree", "src/tree_deserialize.h"]}
{"id": "C09", "title": "Comparison and hashing of values agree", "statement": "The value comparison used for configurations, evaluations, features and maps is a total order (reflexive, antisymmetric, transitive, total) on values regardless of flags; values that compare equal have equal hashes; the same holds for bindings (same context, same number of values, lexicographic on values) including their hash.", "quantifier": "every pair and triple of datums and of bindings", "why_tests_cant": "laws quantify over triples of an infinite domain including all NaN and signed-zero patterns", "anchors": ["src/datum_hash.h: _datum_cmp, _hash_datum, _hash_combine", "src/binding_internal.h: _ccs_binding_cmp, _ccs_binding_hash"]}
{"id": "C10", "title": "Public datum comparison orders values, except around NaN", "statement": "ccs_datum_cmp is a strict total order on datums that are not NaN: negative, zero or positive as types then values compare, antisymmetric, transitive, and zero exactly on datums with the same value (the two zeros count as one). A NaN compares equal to every float, so the full claim \"datums that compare equal are interchangeable\" fails there, and only there.", "quantifier": "every triple of datums", "why_tests_cant": "only fails on triples involving a NaN; no finite sample of ordinary doubles shows it", "anchors": ["include/cconfigspace/base.h: ccs_datum_cmp"]}
{"id": "C11", "title": "Interval membership and intersection are exact", "statement": "A value belongs to the intersection computed for two intervals exactly when it belongs to both; an interval reported empty contains no value; two intervals reported equal contain the same values.", "quantifier": "every pair of integer or float intervals (non-NaN bounds), every included/excluded combination and every value", "why_tests_cant": "open/closed combinations with tied or adjacent bounds over a 2^64 domain", "anchors": ["src/interval.c: ccs_interval_intersect, ccs_interval_empty, ccs_interval_equal, ccs_interval_include", "src/cconfigspace_internal.h: _ccs_interval_include"]}
{"id": "C12", "title": "Interval union is the span of its operands, except for tied bounds", "statement": "The union of two intervals contains exactly the values between the smaller lower and the larger upper bound. Every value of an operand belongs to it, except a bound shared by both operands at which exactly one of them is open: that end point is lost.", "quantifier": "every pair of intervals and every value", "why_tests_cant": "wrong only when bounds tie with different inclusion", "anchors": ["src/interval.c: ccs_interval_union"]}
{"id": "C13", "title": "Emptiness and equality of integer intervals", "statement": "An integer interval reported empty contains no integer; one reported non-empty contains an integer, except an interval open on both sides between consecutive integers. Two integer intervals of which the adjusted bounds do not overflow are reported equal exactly when they have the same adjusted bounds; with bounds at the limits of the type the comparison overflows.", "quantifier": "every integer interval with 64-bit bounds", "why_tests_cant": "wrong for open intervals between consecutive integers and for extreme bounds", "anchors": ["src/interval.c: ccs_interval_empty, ccs_interval_equal"]}
{"id": "C14", "title": "A map behaves as a dictionary for every history", "statement": "After any sequence of set, delete and clear operations, exist and get answer what the last set of that key not followed by a delete or clear stored (or report absence), keys are unique, and get_pairs lists exactly the live key/value pairs. Setting a key to an equal value succeeds without change, an owned NULL object is rejected, deleting an absent key is reported.", "quantifier": "every sequence of map operations over every datum key and value", "why_tests_cant": "histories are unbounded", "anchors": ["src/map.c: ccs_map_set, ccs_map_get, ccs_map_exist, ccs_map_del, ccs_map_clear, ccs_map_get_pairs"]}
{"id": "C15", "title": "What a map lists as its keys", "statement": "ccs_map_get_keys is meant to list the keys present in the map. It lists the values instead: for every content and every array it returns exactly what ccs_map_get_values returns.", "quantifier": "every map content", "why_tests_cant": "tests using identical keys and values cannot tell keys from values", "anchors": ["src/map.c: ccs_map_get_keys, ccs_map_get_values"]}
{"id": "C16", "title": "Logical operators obey their three-valued truth tables", "statement": "Evaluating any expression over any context and valuation follows one fixed unambiguous table per operator. NOT, AND and OR: OR with a true operand is true and otherwise inactive if one operand is; AND with an inactive operand is inactive (even with a false one, or one that is not boolean); non-boolean operands are rejected; errors of operands propagate from left to right, both operands being always evaluated.", "quantifier": "every pair of operand expressions and every valuation", "why_tests_cant": "operands are arbitrary expressions; order of checks (inactive before type) matters only in mixed cases", "anchors": ["src/expression.c: _expr_or, _expr_and, _expr_not"]}
{"id": "C17", "title": "Expression evaluation only depends on the referenced parameters", "statement": "Two contexts and valuations that agree on the parameters occurring in an expression give the same evaluation result (value or error); ccs_expression_get_parameters lists exactly the parameters occurring in the expression, without duplicates, in increasing order; ccs_expression_check_context succeeds exactly if all of them belong to the context (or none occurs).", "quantifier": "every expression, every pair of valuations", "why_tests_cant": "expressions and valuations are unbounded", "anchors": ["src/expression.c: ccs_expression_eval, ccs_expression_get_parameters, ccs_expression_check_context"]}
{"id": "C18", "title": "Turning parameters inactive can only make an expression inactive", "statement": "If an expression evaluates to some value, then evaluating it after some of the parameters have become inactive yields either the same value, inactive, or an error, never a different value.", "quantifier": "every expression and every pair of valuations ordered by activity", "why_tests_cant": "unbounded expressions and subsets of parameters", "anchors": ["src/expression.c"]}
{"id": "C19", "title": "Expression arithmetic is exact on integers within range and correctly rounded on doubles", "statement": "Integer arithmetic in expressions yields the exact result whenever it is a 64 bit integer; division and modulo by zero are rejected; an integer and a double are added, subtracted, multiplied and divided as doubles, each result being the double nearest to the exact one (ties to even), and fmod is exact; inactive operands make the result inactive and other operands are rejected. Undefined behaviour occurs exactly if the integer result overflows, or for the remainder of the minimum integer by -1.", "quantifier": "every pair of 64-bit integers and every arithmetic operator", "why_tests_cant": "only extreme operands trigger it", "anchors": ["src/expression.c: _expr_add, _expr_substract, _expr_multiply, _expr_divide, _expr_modulo, _expr_negative"]}
{"id": "C20", "title": "Equality and ordering operators are coherent", "statement": "For every operands a<=b is the opposite of a>b, a>=b of a<b and a!=b of a==b (same errors and inactive results). For numbers exactly one of a<b, a==b, a>b holds and a<=b is the disjunction of a<b and a==b, except that with NaN no strict comparison holds and == compares the representations, and that zeros of different signs are neither ==, < nor >. Comparing an integer with a double: < and > are only true if they are for the mathematical values, and all three agree with the mathematical values for integers up to 2^53 in magnitude.", "quantifier": "every pair of integer/float operands", "why_tests_cant": "fails only for signed zeros, NaN and integers above 2^53", "anchors": ["src/expression.c: _expr_equal, _expr_not_equal, _expr_less, _expr_less_or_equal"]}
{"id": "C21", "title": "Parameter domain check is exact", "statement": "ccs_parameter_check_value(s) answers true for exactly the values of the parameter's domain (declared values for categorical/ordinal/discrete, correctly typed numbers within bounds for numerical, strings for string parameters), and validation returns a value equal to the given one. The default value of a categorical, ordinal or discrete parameter belongs to the domain; that of a numerical parameter does unless one of the bounds or the default is a NaN (the constructor accepts NaN).", "quantifier": "every parameter a constructor accepts and every datum", "why_tests_cant": "domains and datums are unbounded; NaN bounds and bit-level equality cases", "anchors": ["src/parameter_categorical.c: _ccs_parameter_categorical_check_values", "src/parameter_numerical.c: _ccs_parameter_numerical_check_values", "src/parameter_string.c: _ccs_parameter_string_check_values"]}
{"id": "C22", "title": "Listing categorical values fills exactly the caller's first slots", "statement": "ccs_categorical_parameter_get_values (and ordinal/discrete) with an array at least as large as the number of values stores the values in declaration order in the first slots and leaves every other slot untouched (the intended padding with the 'none' datum never happens); a smaller array is rejected, NULL only reports the count, and a parameter of another kind is rejected.", "quantifier": "every value list and every array length at least as large", "why_tests_cant": "needs an oversized array, which callers following the two-call idiom never pass", "anchors": ["src/parameter_categorical.c: _ccs_categorical_parameter_get_values"]}
{"id": "C23", "title": "Ordinal comparison is the declared order", "statement": "ccs_ordinal_parameter_compare_values on two declared values returns -1/0/1 according to their positions in the declaration, which is a total order; undeclared values are rejected.", "quantifier": "every ordinal parameter and pair of datums", "why_tests_cant": "value lists are unbounded", "anchors": ["src/parameter_categorical.c: ccs_ordinal_parameter_compare_values"]}
{"id": "C24", "title": "In-place sampling reads each sample before overwriting it and stays in the domain", "statement": "ccs_parameter_samples, which stores raw samples in the second half of the output array and converts them in place, with further rounds when samples fall outside the domain, gives the result of converting from separate buffers, never reads an overwritten cell, and on success returns exactly n values of the domain.", "quantifier": "every n and every sample sequence", "why_tests_cant": "aliasing bugs depend on n and on the element sizes", "anchors": ["src/parameter_numerical.c: _ccs_parameter_numerical_samples", "src/parameter_categorical.c: _ccs_parameter_categorical_samples"]}
{"id": "C25", "title": "Context lookups are mutually consistent for every history", "statement": "After any sequence of add_parameter(s) calls on a configuration, objective or features space, looking parameters up by index, by name and by handle agree with each other and with the list of parameters: names are unique, index i holds the i-th successfully added parameter, a call succeeds exactly when the name is new (and, for a configuration space, the parameter is not a string parameter and the given distribution has dimension 1), failed additions change nothing, and add_parameters stops at the first failure keeping what it added before. Indexes passed to get_parameter are taken modulo 2^32.", "quantifier": "every sequence of additions", "why_tests_cant": "histories are unbounded; failures in between matter", "anchors": ["src/context_internal.h", "src/context.c", "src/configuration_space.c: ccs_configuration_space_add_parameter", "src/objective_space.c: ccs_objective_space_add_parameter", "src/features_space.c: ccs_features_space_add_parameter"]}
{"id": "C26", "title": "Bindings behave as arrays of values", "statement": "A binding created over a space behaves as an array: a value set by index, name or parameter is the value later read by any of the three accessors until set again, and other values are unchanged; transient values are checked against the domain of the parameter, others are stored as they are; out-of-range indexes, unknown names and refused values are rejected without change; set_values stores the values up to the first refused one; get_values returns the values in order, pads with the none value and rejects a short array.", "quantifier": "every binding and every sequence of set operations", "why_tests_cant": "histories are unbounded", "anchors": ["src/binding_internal.h: _ccs_binding_set_value, _ccs_binding_get_value, _ccs_binding_set_values, _ccs_binding_get_values"]}
{"id": "C27", "title": "Conditions are accepted exactly when the dependency graph stays acyclic; refusals change nothing", "statement": "ccs_configuration_space_set_condition succeeds exactly when the parameter exists and has no condition, the condition mentions only parameters of the space, and no parameter comes to depend on itself through conditions; otherwise OUT_OF_BOUNDS, INVALID_PARAMETER or INVALID_GRAPH is reported and conditions, clauses and distributions are as before. After any history the parameters are processed in an order in which every parameter appears once, after all parameters its condition refers to; only after a refusal because of a cycle are the parameters on or behind that cycle missing from the order, until the order is next needed by a check, a sample or another condition.", "quantifier": "every history of calls and every dependency graph of every size", "why_tests_cant": "graphs are unbounded; termination and completeness of the sort cannot be sampled", "anchors": ["src/configuration_space.c: _topological_sort, _recompute_graph, _generate_constraints, ccs_configuration_space_set_condition"]}
{"id": "C28", "title": "Activity of parameters is the unique solution of the conditions", "statement": "In the values the library computes (default configuration, samples), a parameter with a condition is inactive exactly when that condition, evaluated on the final values, is not true; other parameters keep their initial value; this is the only assignment consistent with the conditions and the initial values, and the library fails exactly when some condition cannot be evaluated although everything it depends on is settled.", "quantifier": "every reachable configuration space and every vector of initial values", "why_tests_cant": "depends on processing order over arbitrary graphs", "anchors": ["src/configuration_space.c: _set_actives"]}
{"id": "C29", "title": "Checking a configuration is exact", "statement": "ccs_configuration_space_check_configuration(_values) accepts a value vector exactly when it has one value per parameter, every active parameter has a value of its domain, every parameter is active exactly when its condition is true, and no forbidden clause is true; it reports INVALID_CONFIGURATION for a wrong length or a configuration of another space, an evaluation error only if a condition or clause cannot be evaluated, and it changes nothing observable in the space.", "quantifier": "every reachable configuration space and every value vector", "why_tests_cant": "combination of conditions, domains and clauses is unbounded", "anchors": ["src/configuration_space.c: _check_configuration, _test_forbidden, ccs_configuration_space_check_configuration_values"]}
{"id": "C30", "title": "Sampled configurations are valid", "statement": "Every configuration returned by ccs_configuration_space_sample(s), also when samples fails half way, passes ccs_configuration_space_check_configuration, provided the distributions produce values of the parameters' domains. Each attempt draws from every distribution once, in order, settles the activity and tests the clauses; attempts go on until one is accepted, at most 100 times (100 n for n samples), after which SAMPLING_UNSUCCESSFUL is reported; errors stop the sampling.", "quantifier": "every reachable configuration space, every sampler of distributions and every state of the generator", "why_tests_cant": "random draws and spaces are unbounded", "anchors": ["src/configuration_space.c: _sample, ccs_configuration_space_sample, ccs_configuration_space_samples"]}
{"id": "C31", "title": "The default configuration never becomes forbidden", "statement": "A forbidden clause is accepted exactly when it mentions only parameters of the space and is not true of the default configuration; whatever parameters and conditions are added afterwards, no clause becomes true of the default configuration, and the default configuration is accepted by ccs_configuration_space_check_configuration unless a default is not in its domain (a NaN), a clause can no longer be evaluated on it, or a condition was just refused because of a cycle.", "quantifier": "every history of calls, including rejected ones", "why_tests_cant": "fails only after a rejected cyclic condition", "anchors": ["src/configuration_space.c: ccs_configuration_space_get_default_configuration, ccs_configuration_space_set_condition, ccs_configuration_space_add_forbidden_clause"]}
{"id": "C32", "title": "Every parameter is sampled by exactly one distribution", "statement": "After any sequence of calls each parameter of a configuration space is exactly one component of exactly one of its distributions, every component of every distribution is exactly one parameter, and ccs_configuration_space_get_parameter_distribution reports that attachment. Setting a distribution replaces exactly the distributions that shared a parameter with it; parameters that thereby lose theirs get their default distribution; repeated or out of range indices are refused and change nothing.", "quantifier": "every history of calls", "why_tests_cant": "unbounded histories of overlapping multi-dimensional distributions", "anchors": ["src/configuration_space.c: ccs_configuration_space_set_distribution, ccs_configuration_space_add_parameter, ccs_configuration_space_get_parameter_distribution"]}
{"id": "C33", "title": "Roulette selection returns the area containing the draw", "statement": "For every table of cumulative areas that starts at or below 0 and ends at or above 1, and every draw in [0,1), the search terminates, reads only inside the table, and returns the index of an area containing the draw, the only such area when the table is increasing. ccs_create_roulette_distribution accepts exactly the non-empty lists of non-negative weights whose sum is positive and has a finite inverse, and builds the table of normalised partial sums; the areas it reports are the widths of that table.", "quantifier": "every table size, every monotone table, every draw", "why_tests_cant": "termination and boundary behaviour over unbounded tables", "anchors": ["src/distribution_internal.h: _ccs_dichotomic_search"]}
{"id": "C34", "title": "Entries of zero probability are never sampled", "statement": "For weights with a finite sum, sampling a roulette, a mixture or the children of a tree node returns an entry of positive weight, except that the last entry of a roulette (for a tree node: the node itself) can be returned with weight zero for a draw of 1-2^-53 or a sum above 2^1022, and the last component of a mixture for a draw at or above the rounded sum of the other fractions. Weights with an infinite sum are accepted by the constructor and can return zero-weight entries. A tree node whose total is zero is refused.", "quantifier": "every weight vector and every draw", "why_tests_cant": "rounding of the normalised cumulative sums matters only for specific weights", "anchors": ["src/distribution_internal.h: _ccs_distribution_roulette_normalize_areas", "src/distribution_roulette.c", "src/tree.c: _ccs_tree_update_weight"]}
{"id": "C35", "title": "Uniform integer samples stay in bounds", "statement": "ccs_create_uniform_distribution for integers on a linear scale accepts exactly lower < upper with 0 <= quantization <= upper-lower, and overflows when upper-lower does not fit in 64 bits. The samples of an accepted distribution are exactly the values lower + k*quantization whose whole step ends at or below upper; all lie in the interval reported by get_bounds.", "quantifier": "every valid lower/upper/quantization and every raw draw", "why_tests_cant": "2^64 ranges and draws", "anchors": ["src/distribution_uniform.c: _ccs_distribution_uniform_samples"]}
{"id": "C36", "title": "Uniform float samples stay in bounds", "statement": "For finite bounds whose distance does not overflow, every unquantised sample of a float uniform distribution on a linear scale lies between the bounds, both included, and strictly below upper when lower is 0 and upper a normal number above the smallest; quantised samples are lower plus an integer number of steps, as computed on doubles, and reach at most lower + (upper - lower). The upper bound itself, although excluded by get_bounds, can be returned, and distances that overflow give samples outside of the bounds.", "quantifier": "every lower/upper accepted by the constructor and every draw in [0,1)", "why_tests_cant": "rounding to the excluded bound happens only for narrow ranges far from zero", "anchors": ["src/distribution_uniform.c: _ccs_distribution_uniform_samples"]}
{"id": "C37", "title": "Without oversampling every sample is in the parameter's interval", "statement": "When ccs_distribution_check_oversampling reports false for a distribution and an interval, every value within the distribution's bounds is within the interval; when it reports true, the bounds are empty or leave the interval. Mismatched types give CCS_RESULT_ERROR_INVALID_TYPE. Integers overflow only when an excluded bound is the last machine integer on its side.", "quantifier": "every pair of intervals", "why_tests_cant": "open/closed combinations over 64-bit domains", "anchors": ["src/distribution.c: ccs_distribution_check_oversampling"]}
{"id": "C38", "title": "Multi-dimensional sampling puts every component in its own slot", "statement": "For any nesting of multivariate and mixture distributions, array-of-structures, strided and structure-of-arrays sampling write the k-th component of the i-th sample in the slot reserved for it, draw the components in order (mixtures: row by row from the component whose area contains the draw), write every slot exactly once and nothing outside; strides smaller than the dimension are refused; a NULL array skips its dimension. Exception: structure-of-arrays sampling where some but not all the dimensions of a mixture are skipped uses a pointer that was never initialised.", "quantifier": "every nesting, every dimension, every count, stride and choice of skipped dimensions", "why_tests_cant": "offset arithmetic over arbitrary nestings", "anchors": ["src/distribution_multivariate.c: _ccs_distribution_multivariate_samples, _ccs_distribution_multivariate_strided_samples, _ccs_distribution_multivariate_soa_samples", "src/distribution_mixture.c: _ccs_distribution_mixture_samples, _ccs_distribution_mixture_strided_samples, _ccs_distribution_mixture_soa_samples", "src/distribution.c: ccs_distribution_samples, ccs_distribution_strided_samples, ccs_distribution_soa_samples"]}
{"id": "C39", "title": "Creating a mixture never writes outside its memory, unless the dimension is larger than 8/7 of the number of components", "statement": "ccs_create_mixture_distribution, given at least two components of the same types and acceptable weights, writes past its temporary memory exactly when 7*dimension > 8*number; otherwise it returns a mixture with the types of its components, the union of their bounds in each dimension and the table of cumulated normalised weights, or an error code. The bounds cover those of all components when these are open or closed at the same ends.", "quantifier": "every number of distributions and dimension", "why_tests_cant": "needs a dimension larger than the number of distributions", "anchors": ["src/distribution_mixture.c: ccs_create_mixture_distribution"]}
{"id": "C40", "title": "Tree weights are consistent for every history", "statement": "After any sequence of create, set_child, set_weight, set_bias, set_user_data and destructions of roots that attaches no node below itself, the sampling weight of every attached child equals, as a number, the total weight of the child's subtree times its bias, missing children count for 1, every node's total is the sum of its children's weights and its own weight, and the cumulative table of a node of positive total is the one of those weights. Each operation changes exactly what it announces: one node's weight, bias, child slot or parent, and nothing else visible; refused operations change nothing.", "quantifier": "every history and every tree shape", "why_tests_cant": "updates must propagate along arbitrary paths", "anchors": ["src/tree.c: ccs_tree_set_child, ccs_tree_set_weight, ccs_tree_set_bias, _ccs_tree_update_weight, _ccs_tree_update_bias"]}
{"id": "C41", "title": "Tree navigation is consistent", "statement": "Every node has exactly one position from a root; get_position answers it (padded with zeros, or refused when the array is too small) and it leads back to the node; get_values answers the values met along it; get_node_at_position and get_values_at_position succeed exactly on paths that stay in the tree, with INVALID_TREE where a child is missing and OUT_OF_BOUNDS where an index is beyond the arity; the position of a node reached by a path extends the start's position by the path.", "quantifier": "every tree and node", "why_tests_cant": "depth and arity are unbounded", "anchors": ["src/tree.c: ccs_tree_get_position, ccs_tree_get_values, ccs_tree_get_node_at_position, ccs_tree_get_values_at_position"]}
{"id": "C42", "title": "A position is valid exactly when it designates a node", "statement": "ccs_tree_position_is_valid answers true exactly for positions at which ccs_tree_get_node_at_position succeeds and for positions whose last step only leads to a missing child. Every position that sampling draws is valid in that sense; those that end on a missing child give access to no node and no values.", "quantifier": "every tree and position", "why_tests_cant": "only positions ending on a missing child differ", "anchors": ["src/tree.c: ccs_tree_position_is_valid, ccs_tree_get_node_at_position", "src/tree_space.c: _ccs_tree_space_samples"]}
{"id": "C43", "title": "Building a tree never creates a cycle", "statement": "As long as no node is attached to one of its own descendants or to itself, parents and children agree, every walk to the root ends, and sampling a tree of positive finite weights ends. ccs_tree_set_child does not check for cycles: attaching a root below itself never returns, or, when the root's weight times its bias is 1, succeeds and leaves a cycle.", "quantifier": "every tree and candidate child", "why_tests_cant": "requires deliberately linking an ancestor below itself", "anchors": ["src/tree.c: ccs_tree_set_child, _ccs_tree_update_weight"]}
{"id": "C44", "title": "Objects live exactly as long as they are referenced", "statement": "Along every history of calls of an application that passes live handles and releases or changes only what it owns (creations, retains, releases, callbacks, and the calls that change spaces, trees, tuners and maps), the count of an object is the number of references the application, the other live objects and the mislaid ones (C45) have to it; everything owned by a live object is alive and of the expected type; no call uses freed memory, and every call is defined unless a count would exceed 2^31-1. A release destroys exactly the objects that nothing keeps any more and touches no other; what an application can reach is alive, and what is alive is reachable from a reference or from an object that owns itself. Each object is destroyed at most once: its callbacks run exactly once in reverse order of registration, before anything it owns is touched, then its user's del function, then it is freed, once, unless that function failed; nothing happens to it before or afterwards. Two exceptions are proved as such: objects that own themselves (a map that contains itself) are never destroyed, and an object whose user del function fails is never freed.", "quantifier": "every history of calls over every ownership graph, every failure of allocation, every decision of validation", "why_tests_cant": "unbounded interleavings of retain/release over arbitrary graphs", "anchors": ["src/cconfigspace.c: ccs_retain_object, ccs_release_object, ccs_object_set_destroy_callback", "the constructors and del functions of all object types"]}
{"id": "C45", "title": "Failed calls give back what they took", "statement": "A call succeeds exactly when its arguments are of the right types and their values are acceptable (and memory is available). A call that fails gives nothing, and leaves every object, every count and every callback as it was, whatever made it fail, running out of memory included. The exceptions are exactly: a release, which destroys even when the user's del function fails; creating a configuration with a refused value, which keeps one reference to the space; sampling several configurations, which gives those found and, when it gives up, keeps one that nobody owns; a tuner told several evaluations, which keeps those before the first that is not an evaluation; and setting a distribution when memory runs out.", "quantifier": "every call with every combination of arguments in every reachable state", "why_tests_cant": "error paths are rarely exercised and leaks are silent", "anchors": ["src/configuration.c: ccs_create_configuration", "src/evaluation.c: ccs_create_evaluation", "src/features.c: ccs_create_features", "src/configuration_space.c: ccs_configuration_space_samples, ccs_configuration_space_set_distribution", "src/tuner_random.c: _ccs_tuner_random_tell"]}
{"id": "C46", "title": "Evaluation comparison is Pareto dominance", "statement": "ccs_evaluation_compare (and the tree and features versions) answers EQUIVALENT for an evaluation and itself, INVALID_OBJECT when one of two distinct evaluations has failed or they belong to different objective spaces, NOT_COMPARABLE for features evaluations whose features differ, and otherwise examines the objectives in order: BETTER when all pairs of values are integers or floats of the same kind, none is worse and one is strictly better according to the type of the objective, WORSE symmetrically, EQUIVALENT when none is better or worse, NOT_COMPARABLE as soon as there is a conflict or a pair of different kinds, and the error of an objective that cannot be evaluated. Swapping the arguments swaps BETTER and WORSE. Between successful evaluations of one space whose objective values are numbers other than NaN, BETTER is a strict order, EQUIVALENT the equivalence relation compatible with it. With NaN values EQUIVALENT is not transitive.", "quantifier": "every pair/triple of evaluations, every number of objectives, minimise or maximise", "why_tests_cant": "objective vectors are unbounded and early exits depend on order", "anchors": ["src/evaluation.c: ccs_evaluation_compare, _numeric_compare", "src/features_evaluation.c", "src/tree_evaluation.c"]}
{"id": "C47", "title": "A tuner's optima are the Pareto front of its history", "statement": "After any sequence of tell calls on a new random tuner (plain, tree or features), the history is exactly the successful evaluations told, in order. If these evaluations belong to one objective space, have objective values that are numbers other than NaN and did not change since they were told, all calls succeed and the optima are exactly the positions of the history that no evaluation of the history dominates and that are not tied with an earlier one, in order; each evaluation of the history is dominated by or tied with an optimum. get_history and get_optima return these lists, padded with NULL, or refuse an array that is too small.", "quantifier": "every history of tell calls", "why_tests_cant": "unbounded histories", "anchors": ["src/tuner_random.c: _ccs_tuner_random_tell, _ccs_tuner_random_get_optima, _ccs_tuner_random_get_history"]}
{"id": "C48", "title": "What telling an evaluation does to the optima", "statement": "Telling a failed evaluation changes nothing. Telling a successful one appends it to the history; it removes from the optima exactly those it is BETTER than and is appended to the optima unless an optimum is equivalent to it or better. In particular when it is NOT_COMPARABLE with every optimum none is removed and it is appended. The only exception is when a comparison fails (evaluation of another objective space, objective that cannot be evaluated): then the optimum concerned is dropped too, the following ones are kept and the evaluation is not added.", "quantifier": "every tuner state and evaluation", "why_tests_cant": "needs an evaluation from another objective space or a failing objective expression", "anchors": ["src/tuner_random.c: _ccs_tuner_random_tell"]}
{"id": "C49", "title": "Reading objective values respects the caller's array", "statement": "ccs_evaluation_get_objective_values gives the number of objectives when no array is given, refuses with INVALID_VALUE an array longer than the number of objectives, leaving it unchanged, and fills an array of exactly that size with the objective values in order (stopping at the first objective that cannot be evaluated, with its error). With a shorter array it writes past the end of the array as soon as all values before are obtained: undefined behaviour. get_objective_value returns the same values one by one.", "quantifier": "every evaluation and array length", "why_tests_cant": "needs array lengths different from the number of objectives", "anchors": ["src/evaluation.c: ccs_evaluation_get_objective_values"]}
{"id": "C50", "title": "Checking evaluations and features is checking value by value", "statement": "ccs_objective_space_check_evaluation_values and ccs_features_space_check_features refuse vectors of the wrong length (and features of another space) and otherwise answer true exactly when every value belongs to the domain of the parameter at its index. ccs_features_space_check_features_values fails with INVALID_OBJECT on every features space, because it asks for a configuration space.", "quantifier": "every features space and value vector", "why_tests_cant": "the two entry points must agree on all inputs", "anchors": ["src/features_space.c: ccs_features_space_check_features_values, ccs_features_space_check_features"]}
{"id": "C51", "title": "Restoring a tuner restores its history and optima", "statement": "A random tuner (plain, features or tree) is saved as its spaces, its history and the handles of its optima. Restoring it gives, when its evaluations can be restored one by one, the same history in the same order and as optima the same elements of that history, if and only if no evaluation appears twice in the history (else DUPLICATE_HANDLE). Every other outcome (error of the spaces, of an evaluation, unknown optimum, lack of memory, handle already known) is determined, and truncated buffers without user data give NOT_ENOUGH_DATA. The optima of a tuner are always in its history.", "quantifier": "every tuner, every history of tell calls, every buffer tail, every allocator behaviour", "why_tests_cant": "needs every history, including those where the same evaluation is told twice, and every truncation", "anchors": ["src/tuner_deserialize.h", "src/features_tuner_deserialize.h", "src/tree_tuner_deserialize.h", "src/tuner_random.c"]}
{"id": "C52", "title": "What restoring a serialised tree space gives back", "statement": "Writing a tree space succeeds with exactly the announced number of bytes. Reading a static tree space gives back its name, its tree (values, weights, biases, arities, user data of the nodes) and its user data, with a new generator of the default type instead of the saved one. Reading a dynamic tree space gives back its name, its tree and its generator (C67); the state callback of the vector is given no bytes, what the application saved is given as user data, and the saved user data are left in the buffer. Truncated input is refused; a dynamic space without callbacks or whose state callback fails is refused with that error.", "quantifier": "every tree space, generator type table, vector of callbacks, application state and byte order", "why_tests_cant": "state is only visible in the continuation of the random sequence, and an application state can be anything", "anchors": ["src/tree_space_deserialize.h", "src/tree_space_static.c", "src/tree_space_dynamic.c"]}
{"id": "C53", "title": "Streaming through file descriptors is independent of chunking", "statement": "Reading an object from a file descriptor delivers exactly what reading its announced bytes from memory delivers (object, error or undefined behaviour), consumes exactly those bytes and frees what it allocated, whatever sizes the successive reads return and however often they are interrupted; it returns once the bytes have arrived. The same holds for any sequence of non-blocking calls provided realloc extends the block in place. A blocking write appends exactly the framed bytes of the object. A refused header is reported, a system error ends the call, nothing is leaked, and an object is delivered exactly on success. Exceptions, proved as such: the call never returns when the stream ends early; a header announcing less than its own size makes it write out of bounds; a non-blocking read uses its state after realloc moved it; a non-blocking write never succeeds and is undefined when resumed or complete.", "quantifier": "every object codec, every stream, every schedule of partial transfers, interruptions and failures, every number of calls", "why_tests_cant": "schedules of partial reads are unbounded", "anchors": ["src/cconfigspace.c: _ccs_object_deserialize_file_descriptor, _ccs_object_deserialize_file_descriptor_read_loop, _ccs_object_serialize_file_descriptor"]}
{"id": "C54", "title": "Error stacks are faithful per-thread traces", "statement": "Along every sequence of calls of the error stack functions by any number of threads (get, clear, set, create, push, read, retain, release; live handles, references given away only when owned, no push to a stack after a push to it ran out of memory) every call is defined and returns what the preceding calls determine: a stack holds exactly the elements pushed to it, in order, with the code and message it was created with; the error of a thread is the one last raised or set by it and not yet taken or cleared; it stays alive while referenced; and calls about one thread never change the error of another. A library function that raises the errors it returns leaves, when it fails and memory is available, a fresh error of its thread whose code is the returned one, whose message is that of the place that raised it and whose elements are the places the error passed through from innermost to outermost, with no earlier stack altered; one that succeeds leaves the error state unchanged. Exceptions, refuted separately: an error returned by a callback that raised none is recorded in the error of an earlier call, and a push after an out of memory push writes out of bounds.", "quantifier": "every sequence of error operations of every number of threads, every memory shortage, every nesting of raising and validating functions", "why_tests_cant": "unbounded histories", "anchors": ["src/error_stack.c", "src/cconfigspace_internal.h: CCS_RAISE, CCS_VALIDATE, CCS_CREATE_ERROR", "src/utarray.h: utarray_reserve"]}
{"id": "C55", "title": "The header frames a serialised object", "statement": "Serialising an object to memory writes a 13-byte header (magic, total size as a little-endian 64-bit word, version) followed by the object's bytes, leaves the rest of the buffer unchanged, needs exactly 13 bytes more than the object and reports NOT_ENOUGH_DATA otherwise; deserialising the result, followed by anything, gives back the object; deserialising any strict prefix reports NOT_ENOUGH_DATA; a wrong magic tag or an unknown version reports INVALID_VALUE.", "quantifier": "every object and buffer length", "why_tests_cant": "all buffer lengths", "anchors": ["src/cconfigspace.c: _ccs_object_serialize_header, _ccs_object_deserialize_header, _ccs_object_deserialize_memory"]}
{"id": "C56", "title": "Suggestions come from the optima", "statement": "A random tuner without optima suggests a sampled configuration; with optima it suggests the configuration of the optimum at index draw modulo the number of optima, so always of one of the optima and each of them for some draw. A features tuner first refuses features that are not valid for its features space, and then does the same with the optima whose features compare equal to the given ones.", "quantifier": "every tuner state and draw", "why_tests_cant": "unbounded histories and draws", "anchors": ["src/tuner_random.c: _ccs_tuner_random_suggest", "src/features_tuner_random.c: _ccs_features_tuner_random_suggest"]}
{"id": "C57", "title": "Per-feature queries of a features tuner are exact", "statement": "get_optima and get_history of a features tuner restricted to given features return exactly the sub-list of entries whose features compare equal, in order, pad the rest of the array with NULL, and fail without writing when the array is too small.", "quantifier": "every tuner state, features and array length", "why_tests_cant": "unbounded states", "anchors": ["src/features_tuner_random.c: _ccs_features_tuner_random_get_optima, _ccs_features_tuner_random_get_history"]}
{"id": "C58", "title": "The wire format does not depend on the byte order of the host", "statement": "Serialising the same value on a little-endian and on a big-endian host gives the same bytes, and each host reads back the value the other one wrote.", "quantifier": "all values of all kinds, all buffers, both byte orders for writer and reader", "why_tests_cant": "Tests run on one machine of one byte order; the big-endian code paths are never executed.", "anchors": ["src/cconfigspace_internal.h: _ccs_serialize_bin_*/CCS_BSWAP macros", "src/cconfigspace.c: _ccs_object_serialize_header"]}
{"id": "C59", "title": "The announced size plays no role when restoring from memory", "statement": "Deserialising from memory reads the object from all the bytes that follow the header, as many as the buffer holds, whatever size the header announces: two frames differing only by that size give the same outcome. In particular a frame that announces more bytes than the buffer holds is not rejected for it.", "quantifier": "all buffers, all announced sizes and all object decoders", "why_tests_cant": "Needs hand-crafted headers for every possible announced size.", "anchors": ["src/cconfigspace.c: _ccs_object_deserialize_header, ccs_object_deserialize"]}
{"id": "C60", "title": "A map holds one reference per owned object it lists", "statement": "After any history of calls, the reference count of every object is its initial count plus the number of times the map lists it as an owned datum, and clearing the map gives all of them back. An object set over an equal bare handle is not retained.", "quantifier": "every sequence of map operations and every object", "why_tests_cant": "leaks and premature destructions depend on the whole history", "anchors": ["src/map.c: _ccs_map_check_datum, _ccs_map_remove, ccs_map_set, ccs_map_clear"]}
{"id": "C61", "title": "Maps survive serialization", "statement": "Serializing a map and reading it back yields a map with the same keys and values in the same order, consuming exactly the bytes written; objects come back as bare handles.", "quantifier": "every map content with distinct serialisable keys and values, every buffer", "why_tests_cant": "contents and buffers are unbounded", "anchors": ["src/map.c: _ccs_serialize_bin_ccs_map_data", "src/map_deserialize.h"]}
{"id": "C62", "title": "Parameter constructors accept exactly well-formed domains", "statement": "ccs_create_numerical_parameter accepts an integer domain iff lower < upper, 0 <= quantization <= upper-lower and lower <= default < upper (and overflows when upper-lower exceeds INT64_MAX), a float domain under the same IEEE comparisons, and rejects other types; ccs_create_categorical/ordinal/discrete_parameter accepts a value list iff the default index is in range, each value is of a permitted type and no two values are equal. An accepted call yields the parameter with the given name, bounds, values in order and default; a rejected one returns CCS_RESULT_ERROR_INVALID_VALUE.", "quantifier": "every argument of the constructors", "why_tests_cant": "bounds, defaults and value lists range over all machine values; the overflowing span needs bounds far apart", "anchors": ["src/parameter_numerical.c: ccs_create_numerical_parameter", "src/parameter_categorical.c: _ccs_create_categorical_parameter"]}
{"id": "C63", "title": "Expressions are built exactly from valid arguments", "statement": "ccs_create_expression succeeds exactly if the operator is one of the eighteen of the API, the number of nodes is its arity (any for lists) and each node is a literal value, a living parameter or a living expression; the result is the tree of these. Otherwise it reports INVALID_VALUE for the operator, the arity or the kind of the first wrong node, INVALID_OBJECT if that node is a dead handle.", "quantifier": "every operator and every array of nodes", "why_tests_cant": "arrays of nodes are unbounded and which error is reported depends on the first wrong node", "anchors": ["src/expression.c: ccs_create_expression"]}
{"id": "C64", "title": "Sampling several parameters at once rejects whole samples and returns only valid values", "statement": "Sampling n values of several parameters from one multi-dimensional distribution keeps, in order, the samples whose components are all valid for their parameters, drawing again 2, 4, 8, 16 then 32 times as many as are missing when some were rejected; on success the n times dimension values returned are each valid for their parameter and nothing outside the caller's array is written; otherwise the result is the error of the distribution or SAMPLING_UNSUCCESSFUL. String parameters are never sampled.", "quantifier": "every list of parameters, every distribution whose draws lie in its reported bounds, every count", "why_tests_cant": "depends on which random samples fall outside the domains and on the in-place compaction of partly written rows", "anchors": ["src/distribution.c: ccs_distribution_parameters_samples", "src/parameter_numerical.c: _ccs_parameter_numerical_convert_samples", "src/parameter_categorical.c: _ccs_parameter_categorical_convert_samples"]}
{"id": "C65", "title": "Creating a tree node reserves the memory it writes", "statement": "For every arity and value, ccs_create_tree refuses (INVALID_VALUE for inactive, object, unknown and NULL string values and arities of at least 2^63-1, OUT_OF_MEMORY for sizes that cannot be allocated) or builds the node, except for arities for which the size of the block exceeds 2^64 and wraps to an allocatable size (2^61 children): the block is then too small for the weights that are written into it.", "quantifier": "every arity and value", "why_tests_cant": "needs arities around 2^60", "anchors": ["src/tree.c: ccs_create_tree"]}
{"id": "C66", "title": "Objectives of an objective space", "statement": "ccs_objective_space_add_objective appends the objective when all parameters of its expression belong to the space, and otherwise fails with INVALID_PARAMETER and changes nothing; add_objectives does so one by one and keeps those added before the first failure; get_objective and get_objectives return the objectives and their types in order, padded, and refuse indices out of range and arrays that are too small.", "quantifier": "every objective space, expression and array length", "why_tests_cant": "expressions and histories of additions are unbounded", "anchors": ["src/objective_space.c: ccs_objective_space_add_objective, ccs_objective_space_add_objectives, ccs_objective_space_get_objective, ccs_objective_space_get_objectives"]}
{"id": "C67", "title": "A restored random generator goes on with the same numbers", "statement": "Serialising a random generator and deserialising it where the byte order is the same and the generator type has the same name and state size yields a generator of that type, with the same user data, that draws the same numbers; the bytes are exactly those announced and a truncated generator without user data is reported as NOT_ENOUGH_DATA. Where the byte order or the size of the state differs the generator starts anew without an error; where there is no type of that name deserialisation fails with INVALID_VALUE.", "quantifier": "every generator type, state, user data, byte order and number of draws", "why_tests_cant": "the state is opaque and tests only draw a few numbers from the default generator on one host", "anchors": ["src/rng.c", "src/rng_deserialize.h"]}
{"id": "C68", "title": "Positions in dynamic tree spaces", "statement": "For an application whose get_child callback leaves existing nodes alone and answers with a new node or an error, getting the node at a position of a dynamic tree space, checking the position or reading its values follows the children that exist, asks for each missing child exactly once in order and attaches it, and stops at the first failure with that error (a node that already has a parent gives an invalid tree error, no node an invalid object error, an index beyond the arity an out of bounds error, or false when checking). The tree only grows: nodes keep their values and weights and the children they had. A position that was found is found again without calling the application. A sampled position is valid when the application always gives the children. A static space answers from its tree and changes nothing.", "quantifier": "every tree, position, application state and callback that keeps the contract", "why_tests_cant": "the callback is application code; tests use one that always succeeds", "anchors": ["src/tree_space_dynamic.c", "src/tree_space_static.c", "src/tree_space.c"]}
{"id": "C69", "title": "Tree configurations: identity, position and restoration", "statement": "ccs_tree_configuration_cmp is a total order: by tree space, then number of steps, then the steps in turn; it gives 0 exactly for configurations of the same space and position, it is antisymmetric and transitive, and ccs_tree_configuration_hash is determined by the space and the steps, so equal configurations have equal hashes. A configuration keeps the space and the position it was created with; get_position copies it to an array that is large enough, leaves the rest of the array alone, and refuses smaller arrays with CCS_RESULT_ERROR_INVALID_VALUE. get_node, check and get_values answer what the position designates in the space, whether static or dynamic, and get_values reports the number of steps plus one. A serialized configuration is restored with its position and user data, in the tree space that the handle map gives for the handle of its space; it is refused without a handle map (INVALID_OBJECT), when the handle is not mapped to an object (INVALID_HANDLE), when the object is not a tree space (INVALID_OBJECT), when its own handle is to be recorded and is taken (DUPLICATE_HANDLE), when memory lacks and when bytes lack. Only on bytes that no configuration produces is reading unsafe: a step count of 2^61 overflows the allocation.", "quantifier": "all configurations, positions, spaces, contracts-abiding callbacks, handle maps, hash functions and buffers", "why_tests_cant": "positions, trees, maps and buffers are unbounded; order laws quantify over triples of configurations.", "anchors": ["src/tree_configuration.c:116", "src/tree_configuration.c:243", "src/tree_configuration.c:281", "src/tree_configuration_deserialize.h:6", "src/tree_configuration_deserialize.h:29"]}
{"id": "C70", "title": "Configurations, features and evaluations are totally ordered, consistently with their hashes", "statement": "The comparisons of configurations, of features and of the three kinds of evaluations are total orders: by space, then number of values, then values in turn; evaluations then by result and then by what they are about (configuration; configuration then features; tree configuration). They give 0 exactly when all of these are the same, whatever the addresses, flags and user data, are antisymmetric and transitive, and what compares equal has the same hash.", "quantifier": "all configurations, features and evaluations of each kind, all hash functions", "why_tests_cant": "order laws range over triples of objects with any number of values of any kind, including the NaNs", "anchors": ["src/binding_internal.h: _ccs_binding_cmp, _ccs_binding_hash", "src/configuration.c", "src/features.c", "src/evaluation.c: _ccs_evaluation_cmp", "src/features_evaluation.c: _ccs_features_evaluation_cmp", "src/tree_evaluation.c: _ccs_tree_evaluation_cmp"]}
{"id": "C71", "title": "Restoring configurations, features and evaluations", "statement": "A serialized configuration, features or evaluation of any kind takes exactly the announced bytes, and is restored over the space that the handle map gives for the handle of its space with the same values, result, user data and (as new objects) the configuration and features it is about; the object is recorded in the map if that is asked for, the ones inside never are. Strings are checked again by the parameters of the space; an object without values comes back with none for each parameter. Otherwise reading fails with one determined error: OUT_OF_MEMORY when there is no memory for the values, the error of what the evaluation is about, INVALID_HANDLE when the handle stands for no object, INVALID_OBJECT when this is no space of the right kind or there is no map, INVALID_VALUE when the number of values differs or a string is not accepted, DUPLICATE_HANDLE when the handle is to be recorded and taken, NOT_ENOUGH_DATA when bytes lack (and no user data remain), INVALID_TYPE for the bytes of another kind.", "quantifier": "all objects of these kinds, spaces, handle maps, hash functions, byte orders and buffers", "why_tests_cant": "the values, spaces and maps are unbounded and the failures depend on their combination", "anchors": ["src/binding_internal.h", "src/configuration_deserialize.h", "src/features_deserialize.h", "src/evaluation_deserialize.h", "src/features_evaluation_deserialize.h", "src/tree_evaluation_deserialize.h"]}
{"id": "C72", "title": "Saving and restoring features spaces", "statement": "A features space with any parameters and user data is serialized in exactly the announced number of bytes, in the documented layout, and reading these bytes makes a new space with the same name, user data and, in order, parameters with the same type, name, bounds or values, default value (for discrete ones the last value equal to it) and user data; every parameter can be found by name and by index as before. The space is recorded in the handle map if that is asked for. Reading reports OUT_OF_MEMORY when there is no memory for the array of parameters, DUPLICATE_HANDLE when the handle is to be recorded and taken, and NOT_ENOUGH_DATA on truncated bytes (without user data).", "quantifier": "all features spaces, parameters, user data, byte orders, handle maps, addresses of the new objects, buffers", "why_tests_cant": "the number and kinds of parameters, the names and the handles are unbounded", "anchors": ["src/features_space.c", "src/features_space_deserialize.h", "src/context_internal.h", "src/context_deserialize.h", "src/parameter_deserialize.h"]}
{"id": "C73", "title": "Saving and restoring objective spaces", "statement": "An objective space with any parameters, objectives and user data is serialized in exactly the announced number of bytes, in the documented layout. If the expressions given as objectives are distinct objects, reading these bytes makes a new space with the same name, user data, parameters (as new objects, in order) and objectives: the same expressions over the new parameters, with the same types, in order; the space is recorded in the handle map if that is asked for. Reading reports OUT_OF_MEMORY when there is no memory for the arrays, DUPLICATE_HANDLE when the handle is to be recorded and taken, and NOT_ENOUGH_DATA on truncated bytes (without user data). If one expression serves as several objectives, the bytes are written but reading them uses memory after it was freed.", "quantifier": "all objective spaces, parameters, expressions, user data, byte orders, handle maps, addresses of the new objects, buffers", "why_tests_cant": "the spaces and expressions are unbounded, and whether expressions resolve depends on handles recorded while reading", "anchors": ["src/objective_space.c", "src/objective_space_deserialize.h", "src/context_deserialize.h", "src/parameter_deserialize.h", "src/expression_deserialize.h"]}
{"id": "C74", "title": "Saving and restoring distributions", "statement": "Any distribution made by the constructors (uniform, normal, roulette, mixture or multivariate, nested to any depth, with user data) is serialized in exactly the announced number of bytes, in the documented layout. Reading these bytes gives a new distribution of the same kind, with the same dimension, data types, bounds, parameters and user data, its components restored in order, recorded in the handle map if that is asked for; it is one that the constructors make and can be saved and restored in turn. The table of a mixture comes back bit for bit; that of a roulette is computed again from the differences of its cells. This works exactly when there is memory for the arrays and the cells of every table are finite and increase, which holds for mixtures whose weights have a finite sum and roulettes whose weights sum up to at most 2^1022; otherwise reading reports OUT_OF_MEMORY or INVALID_VALUE (the first component that fails tells), DUPLICATE_HANDLE when the handle is to be recorded and taken, INVALID_TYPE for the bytes of another type of object, UNSUPPORTED_OPERATION for an unknown kind of distribution, NOT_ENOUGH_DATA for truncated bytes (without user data).", "quantifier": "all distributions, weights, nesting, user data, byte orders, logarithm functions, handle maps, addresses, buffers", "why_tests_cant": "weights, nesting and handles are unbounded, and whether a roulette can be restored depends on the rounding of sums", "anchors": ["src/distribution_deserialize.h", "src/distribution_uniform.c", "src/distribution_normal.c", "src/distribution_roulette.c", "src/distribution_mixture.c", "src/distribution_multivariate.c"]}
{"id": "C75", "title": "Normal distributions refuse bad arguments, report exact bounds and give multiples of their step within them", "statement": "Creating a normal distribution fails with INVALID_TYPE for a type other than integer or float, else INVALID_SCALE for a scale other than linear or logarithmic, else INVALID_VALUE for a negative step; otherwise it succeeds, and it is quantised exactly if the step is not 0. The reported bounds of an integer distribution are multiples of the step, and the multiples of the step within them are exactly the 64-bit ones (the positive ones if the scale is logarithmic); those of a float distribution contain exactly the finite doubles (the positive ones of at least the step if the scale is logarithmic). Samples are the successive accepted draws of the generator (draws half a step beyond the 64-bit integers are drawn again; logarithmic quantised draws below half a step are refused or taken from the tail), each rounded to the nearest multiple of the step, halves away from zero. Every integer value given is a multiple of the step within the reported bounds, or 0 with a logarithmic scale; every finite float value is within the bounds, or 0 with a logarithmic scale; without a step a logarithmic integer is 0 only for a draw below one half. A float call never fails; an integer call is undefined exactly if an accepted draw has no 64-bit multiple (a draw of 2^63, NaN, or a multiple that overflows).", "quantifier": "all types, means, deviations, scales and steps; all generators, logarithms and exponentials that give doubles; all numbers of samples and all numbers of refused draws", "why_tests_cant": "The offending draws have vanishing probability or need particular steps; rounding at the ends of the 64-bit range differs from the exact one for single values among 2^64.", "anchors": ["src/distribution_normal.c:174-236", "src/distribution_normal.c:238-346", "src/distribution_normal.c:348-376", "src/distribution_normal.c:533-587"]}
{"id": "C76", "title": "Saving and restoring configuration spaces", "statement": "A configuration space obtained by any sequence of calls (parameters added, conditions and distributions set, clauses forbidden) is serialized in exactly the announced number of bytes, in the documented layout. Reading these bytes gives a new space with the same name, user data and random generator state, the same parameters in order, the same conditions and forbidden clauses over the new parameters, and the same distributions attached to the same parameters, with the same dependencies respected; it accepts exactly the same configurations, and is itself a space that the calls can make. This works exactly when the block of memory is granted, every object saved (generator, parameters, conditions, distributions, clauses) occurs once, every distribution can be restored (C74), and the clauses are all false on the default values with the conditions applied. Otherwise reading reports OUT_OF_MEMORY, the error of the first distribution that fails, INVALID_CONFIGURATION or the error of the clause or condition that has no value, DUPLICATE_HANDLE when the handle is to be recorded and taken, INVALID_TYPE for the bytes of another type of object, NOT_ENOUGH_DATA for truncated bytes (without user data); if an object occurs twice, an object is released twice.", "quantifier": "all spaces that calls can make, of any size; all byte orders, hash functions, generators and their types, user data, addresses, handle maps, memories, buffers", "why_tests_cant": "sizes, expressions, nesting of distributions and the order of calls that made the space are unbounded", "anchors": ["src/configuration_space.c:57-299", "src/configuration_space_deserialize.h", "src/configuration_space.c:716-730"]}
{"id": "C77", "title": "Saving objects to files and restoring them", "statement": "Saving an object to a file whose calls to the system all succeed leaves exactly its bytes in that file (those saved to memory), and restoring from it gives the object back as long as the file stays as it is. Restoring from a file that is not empty gives what restoring its bytes from memory gives; a file that was cut is refused with NOT_ENOUGH_DATA, an empty one with SYSTEM, one that cannot be opened with INVALID_FILE_PATH. A failing call to open, map, resize or synchronise is reported as INVALID_FILE_PATH; OUT_OF_MEMORY, INVALID_FILE_PATH or SYSTEM; SYSTEM; SYSTEM. Every call that returns leaves no descriptor open and nothing mapped, changes no other file, and restoring changes none. A save that is refused for its arguments or cannot open the file changes nothing; once the file is open, its former content is lost, also if the save fails: it is then empty, or holds what the encoder left, or (if only synchronising failed) the object.", "quantifier": "all objects with an encoding, all options, byte orders, paths, file systems, outcomes of the calls to the system", "why_tests_cant": "failures of mmap, ftruncate and msync cannot be provoked in a unit test, let alone with every object and option", "anchors": ["src/cconfigspace.c:325-386", "src/cconfigspace.c:749-803"]}
{"id": "C78", "title": "One object, four ways to save it: options, types and operations", "statement": "The size ccs_object_serialize announces is the number of bytes that saving to memory, to a file and to a descriptor deliver, and these bytes are the same; a memory that is too small is refused with NOT_ENOUGH_DATA. Restoring from any of the three delivers the object. Options are accepted exactly if each of them is (not blocking only for descriptors, pointers not NULL, a handle map that is a map), and the last of each kind counts; the first that is not decides the error. The type at the head of the bytes chooses the decoder; error stacks and unknown types are refused with UNSUPPORTED_OPERATION. NULL objects, objects that cannot be saved, unknown operations and formats are refused, and refused calls touch nothing (but a file to be saved to, see C77). Restoring delivers an object exactly when it succeeds.", "quantifier": "all objects with an encoding, lists of options, byte orders, operations, formats, memories, files and descriptors", "why_tests_cant": "the combinations of operations, options, formats and object types are unbounded", "anchors": ["src/cconfigspace.c:145-159", "src/cconfigspace.c:219-323", "src/cconfigspace.c:469-516", "src/cconfigspace.c:538-747", "src/cconfigspace.c:949-990"]}
{"id": "C79", "title": "User defined tuners: what the application says is saved, told back on restoring, and calls reach it", "statement": "Saving a user defined tuner (plain, with features, of a tree) writes the history, the optima and the state the application reports, in this order, before the user data, and the announced size is the number of bytes; an error of the application while saving is the error of the call, as soon as there is room for what comes before. Restoring with a vector of callbacks builds a tuner of that vector with the name and the spaces that were saved, and tells it the same evaluations in the same order, the optima as elements of that history, and the bytes of the state; its refusal is the error of the call; a vector without one of the required callbacks is refused. Random tuners and other objects are read the same with and without a vector, and without one user defined tuners are refused. A call of ask, tell, get_optima, get_history or suggest reaches the application once and with the arguments it was made with, its error code comes back, and other codes become SUCCESS; calls with wrong objects, arrays or features, and suggest without such a callback, do not reach it. Exceptions, shown by counterexamples: an application whose optima are not in its history can be saved but not restored; one without deserialize_state is told the history only, though its state was saved; one that writes less state than it announced saves what the buffer held before, though in exactly the announced number of bytes; one whose two counts add up to more than a size_t is given an array shorter than the count it is called with; one that gives fewer evaluations than it announced makes saving follow a NULL pointer.", "quantifier": "all callbacks, histories, optima, states, names, user data, buffers, spaces that can be saved, handle maps, vectors, arguments", "why_tests_cant": "the callbacks are arbitrary functions of the application, and histories and states have any size", "anchors": ["src/tuner_user_defined.c:25-330", "src/features_tuner_user_defined.c", "src/tree_tuner_user_defined.c", "src/tuner_deserialize.h:120-330", "src/features_tuner_deserialize.h", "src/tree_tuner_deserialize.h", "src/tuner.c:54-136", "src/features_tuner.c:73-175", "src/tree_tuner.c"]}
{"id": "C80", "title": "Functions that fill arrays of the application: the count, the elements, the padding, and nothing else", "statement": "Every function of the form get_X(object, num, array, num_ret) that tells the parameters of a context, the conditions, forbidden clauses and objectives of spaces, the values of a binding, the parts, weights and areas of distributions, the nodes and parameters of an expression, the values and the pairs of a map, the possible values of a parameter, the children, position and values of a tree node, the position of a tree configuration, and the optima and history of random tuners, behaves the same. Without an array it tells the number of elements. With an array of at least that many cells it writes the elements in order to the first cells, pads the cells below num (with NULL, zero or ccs_none), and writes no other cell. It refuses with INVALID_VALUE, and changes nothing, a NULL array of a positive size, a call that asks for nothing, and an array that is too small; objects of other types and kinds are refused with their codes. So asking for the number and then for that many elements gives exactly the elements. The parameters of an expression are told once each, in increasing order of address; evaluations for given features are exactly those whose features are equal. get_values_at_position tells the values along the position, and on a position that leaves the tree it fails having written only the values before. Exceptions: values of bindings are padded without touching the flags of the cells; possible values and positions of tree configurations are not padded; ccs_map_get_keys tells the values; get_objective_values refuses arrays that are larger than needed and, when the array is smaller, writes after its end.", "quantifier": "all objects, sizes, arrays (also longer than said), previous contents, NULL arguments", "why_tests_cant": "the arrays and the contents of the objects are unbounded, and tests do not see writes outside of the arrays they look at", "anchors": ["src/context_internal.h:121-145", "src/configuration_space.c:1354-1384", "src/configuration_space.c:1457-1487", "src/objective_space.c:554-588", "src/binding_internal.h:65-87", "src/distribution_mixture.c:444-499", "src/distribution_multivariate.c:369-397", "src/distribution_roulette.c:291-315", "src/expression.c:1602-1624", "src/expression.c:1728-1779", "src/map.c:280-365", "src/parameter_categorical.c:388-415", "src/tree.c:305-328", "src/tree.c:395-504", "src/tree_configuration.c:165-187", "src/tuner.c:86-124", "src/tuner_random.c:247-297", "src/features_tuner_random.c:256-377", "src/evaluation.c:348-381"]}
{"id": "C81", "title": "Hash tables are the lists of their entries", "statement": "The hash tables behind names, handles, possible values, strings and maps (uthash) behave as the list of the entries that were added and not deleted, in the order of the additions, whatever the hash function, the comparison of keys, and the content of memory are. A search gives an entry of the list whose key has the same hash value and length and compares equal, and NULL exactly if there is none; with at most one such entry it is the one of the list. The count is the length of the list; iterating gives every entry once, in order, also when the body deletes and frees the entry it is given. Deleting takes out that entry and nothing else; clearing takes out all. Adding appends, also when the buckets are doubled on the way; when an allocation fails the table is left as it was, and it fails only if an allocation of a table, of 32 buckets, or of twice the buckets did. No operation reads or writes an element that was freed, nor a freed table. The lists of pairs by which maps are modelled search and delete in the same way.", "quantifier": "all hash functions, comparisons, contents of memory, allocators (that refuse 64 GiB), and all interactive sequences of operations by an application that adds elements once, deletes what is in the table, and frees what is not", "why_tests_cant": "chains, growth and unlinking depend on collisions of hash values and on the order of all earlier operations; tests use few keys", "anchors": ["src/uthash.h:141-176", "src/uthash.h:215-245", "src/uthash.h:281-336", "src/uthash.h:399-480", "src/uthash.h:748-889", "src/uthash.h:1040-1070", "src/datum_uthash.h:1-14"]}
{"id": "C82", "title": "Growable arrays are the lists of their elements", "statement": "The arrays behind parameters, clauses, histories, optima, parents and children, callbacks and error stacks (utarray) behave as the lists of their elements, wherever realloc puts the blocks and whenever it fails. Adding appends and changes nothing else; removing the last, clearing, shrinking and sorting do what they do to the list; growing appends elements of zero bytes. The pointer to element j is given exactly for j below the length; the next and previous pointers, from NULL or from a pointer to an element, go through the elements in order and end with NULL; reading and writing through such a pointer reads and writes that element alone. Different arrays never disturb each other, no operation reads or writes outside of a block or in a freed one. Removing the repetitions among sizes leaves exactly the sizes of the array in increasing order, the function on lists used for configuration spaces. When memory lacks, the operation says so and keeps the elements, but the array counts on slots it does not have: it may be read, shrunk and freed, and filled again up to its former room; one more addition writes outside of its memory. Arrays hold up to 2^31 elements; adding to an array of 2^31 elements does not end.", "quantifier": "all element sizes below 2^32 bytes, all element bytes (also uninitialised), all addresses and failures of malloc and realloc, all orders qsort may give, all interactive sequences of operations on any number of arrays within the obligations (element bytes of the right size, pointers to present elements, room after a failure)", "why_tests_cant": "growth, moving blocks and failures depend on the number of elements and on the allocator; tests do not make realloc move blocks or fail, and cannot see a write into memory that happens to be mapped", "anchors": ["src/utarray.h:54-135", "src/utarray.h:163-182", "src/utarray.h:209-231", "src/configuration_space.c:1124-1151"]}
{"id": "C83", "title": "Doubly linked lists are lists, and the topological sort over them is correct in memory", "statement": "The doubly linked lists behind the distributions of configuration spaces and the queue of the topological sort (DL_APPEND, DL_DELETE, DL_FOREACH, DL_FOREACH_SAFE, DL_COUNT of utlist) behave as lists: appending adds the element last, deleting removes exactly that element wherever it stands, going through the list gives the elements in order, counting gives their number, deleting and freeing all of them while going through it frees each once; no operation touches memory that is not held. The topological sort, which keeps its queue in such a list over one allocated block, sorts any graph of conditions: the result has exactly the nodes that are on no cycle and behind none, each once, each after all its parents; CCS_RESULT_ERROR_INVALID_GRAPH is given exactly when there is a cycle; no access is outside of the block and the block is freed in all cases. The order is the one of the sort on lists by which configuration spaces are modelled, and the graph is that of the conditions of the space. Without memory CCS_RESULT_ERROR_OUT_OF_MEMORY is given and nothing is touched.", "quantifier": "all interactive sequences of list operations within the obligations (memory in the list stays held, only present elements are deleted, present elements are not appended again), any addresses and former contents of the memory; all graphs of fewer than 2^32 nodes, with and without cycles, any address of the block", "why_tests_cant": "a wrong link shows only for some order of appends and deletes and often only after the memory was reused; graphs, cycles and orders are unbounded in number", "anchors": ["src/utlist.h:641-653", "src/utlist.h:708-748", "src/configuration_space.c:47-55", "src/configuration_space.c:1154-1213"]}
{"id": "C84", "title": "A tuner is restored together with its spaces, history and optima", "statement": "A random tuner is saved with its configuration space, its objective space and its history in exactly the announced number of bytes, and these bytes alone, read in another process, give back the whole tuner: the same name and user data; the configuration space with its name, generator, parameters, conditions, distributions and forbidden clauses, which accepts the same configurations; the objective space with its parameters, its objectives over the new parameters and their types; as many evaluations in the same order, each with the same values, result and configuration values, in the new spaces and not in those of another object; the optima, each being the same evaluation of the history as before. This holds for every tuner whose evaluations appear once and are over its spaces, provided that the objects saved are distinct, memory suffices, the distributions can be restored and no clause is true or without value on the default configuration; otherwise the error of the first part that cannot be restored is reported, and no tuner. Without user data every strict prefix of the bytes is refused with NOT_ENOUGH_DATA.", "quantifier": "for all spaces reachable by any calls, all parameters, conditions, clauses, distributions, generators and objectives, all histories and optima over them, all user data and names, all addresses of the new objects, all allocators, all handle maps of the caller, all bytes that follow", "why_tests_cant": "The restored history must be attached to the restored spaces through a map of handles shared by four deserialisers; a test restores a few tuners, while a wrong handle, a wrong order or a value checked against the wrong parameter only shows for some combinations of spaces and histories.", "anchors": ["src/tuner_internal.h:56-91", "src/tuner_deserialize.h:19-84", "src/tuner_deserialize.h:237-320", "src/tuner_random.c:31-150", "src/configuration_space_deserialize.h:116-248", "src/objective_space_deserialize.h:16-155", "src/evaluation_deserialize.h"]}
{"id": "C85", "title": "A features tuner is restored together with its three spaces, history and optima", "statement": "A random features tuner is saved with its configuration space, its objective space, its features space and its history in exactly the announced number of bytes, and these bytes alone, read in another process, give back the whole tuner: the same name and user data; the configuration space and the objective space as for a tuner (C84); the features space with its name, its user data and its parameters in the same order; as many evaluations in the same order, each with the same objective values and result, the values of its configuration over the new configuration space and those of its features over the new features space; the optima, each being the same evaluation of the history as before. This holds for every features tuner whose evaluations appear once and are over its spaces, provided that the objects saved are distinct, memory suffices, the distributions can be restored and no clause is true or without value on the default configuration; otherwise the error of the first space that cannot be restored is reported, in the order configuration space, objective space, features space, and no tuner. Without user data every strict prefix of the bytes is refused with NOT_ENOUGH_DATA.", "quantifier": "for all spaces reachable by any calls, all parameters, conditions, clauses, distributions, generators and objectives, all histories and optima over them, all user data and names, all addresses of the new objects, all allocators, all handle maps of the caller, all bytes that follow", "why_tests_cant": "Each restored evaluation refers to three restored spaces through one map of handles shared by five deserialisers; a test restores a few tuners, while features checked against the parameters of another space, or attached to it, only show for some combinations of spaces and histories.", "anchors": ["src/features_tuner_internal.h:45-104", "src/features_tuner_deserialize.h:19-84", "src/features_tuner_random.c:31-150", "src/features_space_deserialize.h", "src/features_evaluation_deserialize.h"]}
{"id": "C86", "title": "A tree tuner over a static tree space is restored whole; over a dynamic one without user data it is never restored", "statement": "A random tree tuner is saved with its tree space, its objective space and its history in exactly the announced number of bytes. Over a static tree space these bytes alone, read in another process, give back the tuner: the same name and user data; the tree space with its name, its user data and the same tree, in new nodes that disturb no other tree, and with a new generator of the default type; the objective space with its parameters and objectives; as many evaluations in the same order, each with the same objective values, result and position, in the new spaces; the optima, each being the same evaluation of the history as before. This holds for every tree tuner whose evaluations appear once and are over its spaces, provided that the objects saved are distinct and memory suffices. Over a dynamic tree space the bytes are written but no tuner is given back: without callbacks the error is INVALID_VALUE, when the application refuses to restore its state it is the error of the application, and otherwise, when the tree space has no user data to save, it is INVALID_TYPE, because what the application saved is taken for user data and the user data for the objective space.", "quantifier": "for all trees reachable by any operations, all tree spaces, generators and callbacks, all parameters and objectives, all histories and optima over them, all user data and names, all addresses of the new objects, all allocators, all handle maps of the caller, all bytes that follow", "why_tests_cant": "The tests restore tree tuners over one static space, where the order in which the parts are read does not show; that a tuner over a dynamic space is never restored, and that one over a static space always is, quantifies over all trees, callbacks and histories.", "anchors": ["src/tree_tuner_internal.h:47-91", "src/tree_tuner_deserialize.h:19-150", "src/tree_space_deserialize.h:8-185", "src/tree_space_dynamic.c:25-139", "src/tree_evaluation_deserialize.h"]}
{"id": "C87", "title": "A user defined tuner comes back with its spaces, and the application is told the same history, optima and state", "statement": "A user defined tuner, features tuner or tree tuner over a static tree space is saved with its spaces, with the history and the optima that the application says and with the state that the application gives, in exactly the announced number of bytes. These bytes and the vector of callbacks, read in another process, restore the spaces as they are restored with a random tuner; then the application is given as many evaluations in the same order, each with the same values, result and user data but over the restored spaces, the same evaluations of that history as optima, and the same bytes of state. A vector that lacks a mandatory callback gives INVALID_VALUE, an error of the application is the error of the call, a handle already known to the caller gives DUPLICATE_HANDLE; otherwise the tuner has the same name and user data, the restored spaces and the state that the application made. Errors while the spaces are read come first.", "quantifier": "for all answers of the application, all histories and optima over the spaces, all states, all configuration, objective and features spaces reachable by any calls, all trees, all vectors of callbacks, all user data and names, all addresses of the new objects, all allocators, all handle maps of the caller, all bytes that follow", "why_tests_cant": "The tests restore one user defined tuner with one state over one pair of spaces; that whatever the application says comes back to it in the right order over the right spaces quantifies over all applications, histories and spaces.", "anchors": ["src/tuner_user_defined.c:25-221", "src/features_tuner_user_defined.c", "src/tree_tuner_user_defined.c", "src/tuner_deserialize.h:19-330", "src/features_tuner_deserialize.h", "src/tree_tuner_deserialize.h"]}
{"id": "C88", "title": "User data is saved and loaded by the right callback, called with the right arguments", "statement": "When an object is saved its user data is handed to the callback set on the object, else to the callback given as an option, each with the pointer given with it; an object without user data, or without either callback, calls nothing and takes one byte. The callback is asked once for the size and then, if there is room, once for exactly that many bytes; the announced size is the size written, and the bytes written are the length followed by what the callback stored. If the application answers otherwise than before, or stores less, nothing is written outside the buffer and the block can still be delimited. A negative code of the callback is the result of the call and nothing more is called. On loading, the callback of the options is called once with the object, exactly the bytes saved and its own pointer, not at all for an empty block, and its error is the result. Setting user data or a callback is effective for that object alone, a NULL callback removes the previous one, NULL objects and NULL result pointers are refused. The documented reading that a zero size is a query is false: a callback with nothing to save is called a second time with size zero and no place for the size.", "quantifier": "for all applications, whatever they answer to any sequence of calls; all objects, callbacks, options and pointers; all bytes; all buffers and sizes; all bytes that follow", "why_tests_cant": "The tests use one callback that saves one string; which callback is called in every combination, and that no answer of the application makes the library write outside the buffer, quantifies over all applications and buffers.", "anchors": ["src/cconfigspace_internal.h:1080-1197", "src/cconfigspace.c:113-143", "src/cconfigspace.c:224-254", "include/cconfigspace/base.h:824-867"]}
