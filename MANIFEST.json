{
 "claims": [
  {
   "property": "C01",
   "status": "proved",
   "theorems": [
    "C01_unsigned_roundtrip",
    "C01_signed_roundtrip",
    "C01_fixed_roundtrip",
    "C01_int8_roundtrip"
   ],
   "note": ""
  },
  {
   "property": "C02",
   "status": "proved",
   "theorems": [
    "C02_datum_writer_bounded",
    "C02_composite_writers_bounded"
   ],
   "note": ""
  },
  {
   "property": "C03",
   "status": "proved",
   "theorems": [
    "C03_datum_truncated",
    "C03_composite_truncated",
    "C03_scalar_truncated"
   ],
   "note": ""
  },
  {
   "property": "C04",
   "status": "proved",
   "theorems": [
    "C04_numbers",
    "C04_composed",
    "C04_decoders_total_refuted",
    "C04_overlong_refuted",
    "C04_short_varints"
   ],
   "note": "The claim that decoding never has undefined behaviour is refuted (C04_decoders_total_refuted, C04_overlong_refuted); the three cases are characterised exactly by C04_numbers and C04_composed. A string may extend past its announced size."
  },
  {
   "property": "C05",
   "status": "proved",
   "theorems": [
    "C05_datum_roundtrip",
    "C05_null_string_refuted"
   ],
   "note": "C05_null_string_refuted: a string datum holding NULL, which the public constructors allow, is handed to strlen."
  },
  {
   "property": "C06",
   "status": "proved",
   "theorems": [
    "C06_param_roundtrip",
    "C06_param_roundtrip_exact",
    "C06_default_refuted"
   ],
   "note": "C06_default_refuted witnesses the exception named in the statement (values 0.0, -0.0)."
  },
  {
   "property": "C07",
   "status": "proved",
   "theorems": [
    "C07_format_exists",
    "C07_written",
    "C07_read"
   ],
   "note": ""
  },
  {
   "property": "C08",
   "status": "proved",
   "theorems": [
    "C08_written",
    "C08_restored"
   ],
   "note": "Arity and strings of at most 2^40 (a bound on memory), user data below 2^64 bytes."
  },
  {
   "property": "C09",
   "status": "proved",
   "theorems": [
    "C09_datum_order",
    "C09_datum_total_order",
    "C09_hash_agrees",
    "C09_binding_order",
    "C09_binding_total_order",
    "C09_binding_hash_agrees"
   ],
   "note": ""
  },
  {
   "property": "C10",
   "status": "proved",
   "theorems": [
    "C10_public_order",
    "C10_public_total_order",
    "C10_nan_equals_everything",
    "C10_strict_order_refuted"
   ],
   "note": "Exact characterisation; C10_strict_order_refuted records that the unrestricted claim fails on NaN."
  },
  {
   "property": "C11",
   "status": "proved",
   "theorems": [
    "C11_membership_exact",
    "C11_intersection_exact",
    "C11_emptiness_sound",
    "C11_mixed_types_rejected",
    "C11_float_equality"
   ],
   "note": ""
  },
  {
   "property": "C12",
   "status": "proved",
   "theorems": [
    "C12_union_exact",
    "C12_union_covers_all_but_lost",
    "C12_union_covers_refuted"
   ],
   "note": "C12_union_exact and C12_union_covers_all_but_lost characterise the union and exactly which points are lost; C12_union_covers_refuted gives a lost point."
  },
  {
   "property": "C13",
   "status": "proved",
   "theorems": [
    "C13_int_emptiness",
    "C13_int_equality",
    "C13_int_emptiness_refuted",
    "C13_int_equality_refuted"
   ],
   "note": "C13_int_emptiness and C13_int_equality are exact; the refuted theorems witness the exceptions named in the statement."
  },
  {
   "property": "C14",
   "status": "proved",
   "theorems": [
    "C14_map_is_dictionary"
   ],
   "note": ""
  },
  {
   "property": "C15",
   "status": "proved",
   "theorems": [
    "C15_get_keys_returns_values",
    "C15_get_keys_refuted"
   ],
   "note": "C15_get_keys_refuted witnesses that the intended claim is false."
  },
  {
   "property": "C16",
   "status": "proved",
   "theorems": [
    "C16_evaluation",
    "C16_unambiguous",
    "C16_logic",
    "C16_and_false_refuted"
   ],
   "note": "Full proof of the exact tables. C16_and_false_refuted records that AND is not Kleene's: false AND inactive is inactive."
  },
  {
   "property": "C17",
   "status": "proved",
   "theorems": [
    "C17_dependence",
    "C17_parameters",
    "C17_check_context"
   ],
   "note": ""
  },
  {
   "property": "C18",
   "status": "proved",
   "theorems": [
    "C18_inactive"
   ],
   "note": ""
  },
  {
   "property": "C19",
   "status": "proved",
   "theorems": [
    "C19_arithmetic",
    "C19_rounding",
    "C19_conversion",
    "C19_rounding_unique",
    "C19_defined_refuted",
    "C19_negative_refuted"
   ],
   "note": "Full proof of the exact behaviour. C19_defined_refuted and C19_negative_refuted record that undefined behaviour is within reach: the code does not check for overflow."
  },
  {
   "property": "C20",
   "status": "proved",
   "theorems": [
    "C20_opposite",
    "C20_trichotomy",
    "C20_nan",
    "C20_signed_zeros",
    "C20_mixed",
    "C20_mixed_swapped",
    "C20_mixed_equal_refuted",
    "C20_zeros_refuted"
   ],
   "note": "Full proof of the characterisation, exceptions included. C20_mixed_equal_refuted and C20_zeros_refuted are witnesses of the exceptions."
  },
  {
   "property": "C21",
   "status": "proved",
   "theorems": [
    "C21_numerical_domain",
    "C21_numerical_default",
    "C21_default_refuted",
    "C21_categorical_domain",
    "C21_categorical_default",
    "C21_string_domain",
    "C21_string_validate"
   ],
   "note": "C21_default_refuted witnesses the NaN exception named in the statement."
  },
  {
   "property": "C22",
   "status": "proved",
   "theorems": [
    "C22_get_values",
    "C22_get_values_other",
    "C22_padding_refuted"
   ],
   "note": "Exact behaviour proved; C22_padding_refuted shows the padding the code intends does not happen."
  },
  {
   "property": "C23",
   "status": "proved",
   "theorems": [
    "C23_ordinal_order"
   ],
   "note": ""
  },
  {
   "property": "C24",
   "status": "proved",
   "theorems": [
    "C24_in_place_sampling",
    "C24_samples_in_domain"
   ],
   "note": ""
  },
  {
   "property": "C25",
   "status": "proved",
   "theorems": [
    "C25_lookups",
    "C25_add_parameters",
    "C25_index_range_refuted"
   ],
   "note": "C25_index_range_refuted witnesses the truncation of the index named in the statement."
  },
  {
   "property": "C26",
   "status": "proved",
   "theorems": [
    "C26_array",
    "C26_get_values",
    "C26_failed_unchanged_refuted"
   ],
   "note": "C26_failed_unchanged_refuted witnesses that a failed set_values may have stored some values, as the statement says."
  },
  {
   "property": "C27",
   "status": "proved",
   "theorems": [
    "C27_conditions",
    "C27_order",
    "C27_listed"
   ],
   "note": "Kahn's algorithm proved correct over the graph recomputed from the conditions; indices are truncated to 32 bits as in the code."
  },
  {
   "property": "C28",
   "status": "proved",
   "theorems": [
    "C28_activity",
    "C28_unique",
    "C28_default"
   ],
   "note": ""
  },
  {
   "property": "C29",
   "status": "proved",
   "theorems": [
    "C29_check",
    "C29_owner"
   ],
   "note": ""
  },
  {
   "property": "C30",
   "status": "proved",
   "theorems": [
    "C30_sample",
    "C30_samples",
    "C30_sampled_valid",
    "C30_samples_valid"
   ],
   "note": "The sampling of a distribution is a parameter of the model; hypothesis well_drawn: one well-formed value per parameter."
  },
  {
   "property": "C31",
   "status": "proved",
   "theorems": [
    "C31_clause",
    "C31_clauses",
    "C31_listed",
    "C31_default_not_forbidden",
    "C31_default_valid",
    "C31_default_valid_refuted",
    "C31_clause_error_refuted"
   ],
   "note": "The unrestricted claim is false: C31_default_valid_refuted (after a refused cyclic condition the default configuration ignores the conditions on the cycle) and C31_clause_error_refuted (a clause with IN over a parameter that became inactive is an error) exhibit the exceptions named in the statement."
  },
  {
   "property": "C32",
   "status": "proved",
   "theorems": [
    "C32_partition",
    "C32_set_distribution",
    "C32_add",
    "C32_adds"
   ],
   "note": ""
  },
  {
   "property": "C33",
   "status": "proved",
   "theorems": [
    "C33_search",
    "C33_roulette_creation",
    "C33_areas_reported"
   ],
   "note": ""
  },
  {
   "property": "C34",
   "status": "proved",
   "theorems": [
    "C34_roulette",
    "C34_mixture",
    "C34_refuted",
    "C34_tree"
   ],
   "note": "C34_refuted witnesses the exceptions named in the statement."
  },
  {
   "property": "C35",
   "status": "proved",
   "theorems": [
    "C35_creation",
    "C35_samples"
   ],
   "note": ""
  },
  {
   "property": "C36",
   "status": "proved",
   "theorems": [
    "C36_samples",
    "C36_creation",
    "C36_half_open_refuted"
   ],
   "note": "C36_half_open_refuted witnesses the exceptions named in the statement."
  },
  {
   "property": "C37",
   "status": "proved",
   "theorems": [
    "C37_float",
    "C37_int",
    "C37_types",
    "C37_all_dimensions"
   ],
   "note": ""
  },
  {
   "property": "C38",
   "status": "proved",
   "theorems": [
    "C38_samples",
    "C38_strided",
    "C38_arrays",
    "C38_no_sample",
    "C38_partly_wanted_mixture_refuted"
   ],
   "note": "C38_partly_wanted_mixture_refuted is the exception stated in the property."
  },
  {
   "property": "C39",
   "status": "proved",
   "theorems": [
    "C39_creation",
    "C39_bounds_cover",
    "C39_in_memory_refuted"
   ],
   "note": "C39_in_memory_refuted witnesses the overrun (2 components of dimension 3)."
  },
  {
   "property": "C40",
   "status": "proved",
   "theorems": [
    "C40_operations",
    "C40_consistent",
    "C40_accessors"
   ],
   "note": ""
  },
  {
   "property": "C41",
   "status": "proved",
   "theorems": [
    "C41_positions",
    "C41_node_at",
    "C41_values_at",
    "C41_extends"
   ],
   "note": ""
  },
  {
   "property": "C42",
   "status": "proved",
   "theorems": [
    "C42_valid",
    "C42_sampled",
    "C42_refuted"
   ],
   "note": "C42_refuted: a valid, sampled position without a node."
  },
  {
   "property": "C43",
   "status": "proved",
   "theorems": [
    "C43_forest",
    "C43_sampling_ends",
    "C43_below_itself",
    "C43_refuted"
   ],
   "note": "The intended claim (such children are rejected) is refuted by C43_refuted; C43_below_itself is the exact behaviour."
  },
  {
   "property": "C44",
   "status": "proved",
   "theorems": [
    "C44_counted",
    "C44_defined",
    "C44_room",
    "C44_outcome",
    "C44_release",
    "C44_reached",
    "C44_kept_by",
    "C44_gone",
    "C44_destiny",
    "C44_log",
    "C44_cycle_refuted",
    "C44_freed_refuted"
   ],
   "note": "C44_cycle_refuted and C44_freed_refuted witness the exceptions named in the statement. Setting a distribution is only considered when memory is available (see C45)."
  },
  {
   "property": "C45",
   "status": "proved",
   "theorems": [
    "C45_accepts",
    "C45_code",
    "C45_restores",
    "C45_configuration_refuted",
    "C45_samples_refuted",
    "C45_tell_refuted",
    "C45_distribution_refuted"
   ],
   "note": "The _refuted theorems witness the exceptions named in the statement; C44_outcome says what the exceptional calls leave."
  },
  {
   "property": "C46",
   "status": "proved",
   "theorems": [
    "C46_compare",
    "C46_unambiguous",
    "C46_swap",
    "C46_order",
    "C46_nan_refuted"
   ],
   "note": "The exception (NaN) is exhibited by C46_nan_refuted."
  },
  {
   "property": "C47",
   "status": "proved",
   "theorems": [
    "C47_history",
    "C47_front",
    "C47_front_unique",
    "C47_read"
   ],
   "note": ""
  },
  {
   "property": "C48",
   "status": "proved",
   "theorems": [
    "C48_tell",
    "C48_tell_split",
    "C48_incomparable",
    "C48_failure",
    "C48_refuted"
   ],
   "note": "The original claim, that an evaluation that cannot be compared never removes an optimum, is false: C48_refuted; C48_failure says exactly what is lost."
  },
  {
   "property": "C49",
   "status": "proved",
   "theorems": [
    "C49_values",
    "C49_value",
    "C49_short_refuted",
    "C49_long_refuted"
   ],
   "note": "The size test is inverted in the code; the consequences are exhibited by C49_short_refuted and C49_long_refuted."
  },
  {
   "property": "C50",
   "status": "proved",
   "theorems": [
    "C50_evaluation_values",
    "C50_features",
    "C50_unambiguous",
    "C50_features_values",
    "C50_agreement_refuted"
   ],
   "note": "The disagreement between check_features and check_features_values is exhibited by C50_agreement_refuted."
  },
  {
   "property": "C51",
   "status": "proved",
   "theorems": [
    "C51_written",
    "C51_tuner",
    "C51_features_tuner",
    "C51_tree_tuner",
    "C51_outcomes",
    "C51_restored",
    "C51_evaluations",
    "C51_optima",
    "C51_other_type",
    "C51_other_tuner",
    "C51_twice_refuted",
    "C51_counts_refuted"
   ],
   "note": "The codecs of the spaces are parameters of the theorem (their outcome is a hypothesis). Exceptions: an evaluation told twice cannot be restored (C51_twice_refuted); counts whose sum wraps around 2^64 make the reader go out of bounds (C51_counts_refuted). User defined tuners are read with a vector of the application and are not modelled."
  },
  {
   "property": "C52",
   "status": "proved",
   "theorems": [
    "C52_written",
    "C52_static",
    "C52_dynamic",
    "C52_refused",
    "C52_generator_refuted",
    "C52_state_refuted"
   ],
   "note": "The natural statement (generator and state are restored) is false for static spaces (generator) and for dynamic spaces (state and user data): C52_generator_refuted, C52_state_refuted. The property was reworded to what holds."
  },
  {
   "property": "C53",
   "status": "proved",
   "theorems": [
    "C53_blocking",
    "C53_nonblocking",
    "C53_round",
    "C53_round_nonblocking",
    "C53_bad_header",
    "C53_returns",
    "C53_system",
    "C53_written",
    "C53_write_refused",
    "C53_cut",
    "C53_short",
    "C53_end_refuted",
    "C53_small",
    "C53_moved_refuted",
    "C53_write_nonblocking",
    "C53_write_resumed",
    "C53_write_refuted"
   ],
   "note": "C53_end_refuted, C53_moved_refuted and C53_write_refuted document exceptions named in the statement."
  },
  {
   "property": "C54",
   "status": "proved",
   "theorems": [
    "C54_defined",
    "C54_answers",
    "C54_objects",
    "C54_current",
    "C54_errors",
    "C54_owned",
    "C54_isolated",
    "C54_trace",
    "C54_success",
    "C54_stale_refuted",
    "C54_memory_refuted"
   ],
   "note": "C54_stale_refuted and C54_memory_refuted document the exceptions named in the statement."
  },
  {
   "property": "C55",
   "status": "proved",
   "theorems": [
    "C55_serialize_frames",
    "C55_deserialize_framed",
    "C55_bad_headers_rejected"
   ],
   "note": ""
  },
  {
   "property": "C56",
   "status": "proved",
   "theorems": [
    "C56_suggest",
    "C56_ask",
    "C56_suggest_features"
   ],
   "note": ""
  },
  {
   "property": "C57",
   "status": "proved",
   "theorems": [
    "C57_queries"
   ],
   "note": ""
  },
  {
   "property": "C58",
   "status": "proved",
   "theorems": [
    "C58_portable_bytes"
   ],
   "note": ""
  },
  {
   "property": "C59",
   "status": "proved",
   "theorems": [
    "C59_bytes_present",
    "C59_announced_ignored",
    "C59_announced_size_checked_refuted"
   ],
   "note": "C59_announced_size_checked_refuted keeps the witness against the expectation that the size is checked."
  },
  {
   "property": "C60",
   "status": "proved",
   "theorems": [
    "C60_set_object_retains_refuted",
    "C60_one_reference_per_owned_entry"
   ],
   "note": "C60_set_object_retains_refuted witnesses the exception named in the statement."
  },
  {
   "property": "C61",
   "status": "proved",
   "theorems": [
    "C61_map_roundtrip"
   ],
   "note": ""
  },
  {
   "property": "C62",
   "status": "proved",
   "theorems": [
    "C62_create_int",
    "C62_int_span_refuted",
    "C62_create_float",
    "C62_create_other",
    "C62_create_categorical"
   ],
   "note": "C62_int_span_refuted witnesses the overflow named in the statement."
  },
  {
   "property": "C63",
   "status": "proved",
   "theorems": [
    "C63_create",
    "C63_created_well_formed"
   ],
   "note": ""
  },
  {
   "property": "C64",
   "status": "proved",
   "theorems": [
    "C64_rejection",
    "C64_valid",
    "C64_strings"
   ],
   "note": ""
  },
  {
   "property": "C65",
   "status": "proved",
   "theorems": [
    "C65_create",
    "C65_refuted"
   ],
   "note": "C65_refuted witnesses the overflow. Allocation is modelled as refusing blocks above 2^56 bytes."
  },
  {
   "property": "C66",
   "status": "proved",
   "theorems": [
    "C66_add",
    "C66_adds",
    "C66_get"
   ],
   "note": ""
  },
  {
   "property": "C67",
   "status": "proved",
   "theorems": [
    "C67_written",
    "C67_restored",
    "C67_continues",
    "C67_unknown",
    "C67_refuted"
   ],
   "note": "GSL is not modelled: the table of types, the initial states and the draws are parameters. C67_refuted: on a host of the other byte order the generator silently starts anew (a property of the code, in the statement)."
  },
  {
   "property": "C68",
   "status": "proved",
   "theorems": [
    "C68_node",
    "C68_check",
    "C68_values",
    "C68_there",
    "C68_again",
    "C68_sampled",
    "C68_static"
   ],
   "note": ""
  },
  {
   "property": "C69",
   "status": "proved",
   "theorems": [
    "C69_other_type",
    "C69_order",
    "C69_order_total",
    "C69_hash",
    "C69_created",
    "C69_not_created",
    "C69_position",
    "C69_no_position",
    "C69_static",
    "C69_dynamic",
    "C69_count",
    "C69_written",
    "C69_restored",
    "C69_refused",
    "C69_no_memory",
    "C69_steps_refuted"
   ],
   "note": "C69_steps_refuted documents the exception of the statement: a crafted step count makes the deserializer write beyond its buffer."
  },
  {
   "property": "C70",
   "status": "proved",
   "theorems": [
    "C70_bindings_order",
    "C70_evaluation_order",
    "C70_features_evaluation_order",
    "C70_tree_evaluation_order",
    "C70_hash_parts",
    "C70_hash_agrees"
   ],
   "note": ""
  },
  {
   "property": "C71",
   "status": "proved",
   "theorems": [
    "C71_written",
    "C71_configuration",
    "C71_features",
    "C71_other_type",
    "C71_evaluation",
    "C71_features_evaluation",
    "C71_tree_evaluation",
    "C71_outcomes",
    "C71_no_map"
   ],
   "note": ""
  },
  {
   "property": "C72",
   "status": "proved",
   "theorems": [
    "C72_features_space"
   ],
   "note": ""
  },
  {
   "property": "C73",
   "status": "proved",
   "theorems": [
    "C73_objective_space",
    "C73_other_type",
    "C73_twice_refuted"
   ],
   "note": "C73_twice_refuted: the same expression object used for two objectives is saved, and restoring it releases one expression twice."
  },
  {
   "property": "C74",
   "status": "proved",
   "theorems": [
    "C74_distribution",
    "C74_outcome",
    "C74_restorable",
    "C74_shape",
    "C74_says",
    "C74_again",
    "C74_mixtures",
    "C74_roulettes",
    "C74_other_type",
    "C74_other_kind",
    "C74_too_many",
    "C74_exact_refuted",
    "C74_restored_refuted"
   ],
   "note": "C74_exact_refuted: a roulette restored may differ in its last bits from the one saved, even so that a draw gives another index. C74_restored_refuted: a roulette or mixture with an infinite weight is made and saved but cannot be restored, nor a roulette whose weights sum up to more than 2^1022 when rounding makes a cell exceed 1."
  },
  {
   "property": "C75",
   "status": "proved",
   "theorems": [
    "C75_create",
    "C75_int_bounds",
    "C75_float_bounds",
    "C75_int_samples",
    "C75_float_samples",
    "C75_int_values",
    "C75_int_positive",
    "C75_float_values",
    "C75_defined_refuted",
    "C75_bounds_refuted"
   ],
   "note": "Refuted: integer sampling is not always defined (a draw of 2^63 is accepted and converted, a quantised one may overflow when multiplied by the step: C75_defined_refuted); with a logarithmic scale and the step 49 a draw of half a step gives 0, below the reported lower bound (C75_bounds_refuted)."
  },
  {
   "property": "C76",
   "status": "proved",
   "theorems": [
    "C76_space",
    "C76_outcome",
    "C76_same_configurations",
    "C76_other_type",
    "C76_shared_refuted",
    "C76_restored_refuted",
    "C76_any_bytes_refuted",
    "C76_indexes_fit"
   ],
   "note": "C76_shared_refuted: a condition set for two parameters, or a distribution given to two parameters, is accepted and saved, but reading the bytes back releases an object twice. C76_restored_refuted: a space with a clause that has become impossible to evaluate on the default configuration is saved but cannot be restored. C76_any_bytes_refuted: bytes that announce too many indexes for a distribution make the reader write outside of its block."
  },
  {
   "property": "C77",
   "status": "proved",
   "theorems": [
    "C77_saved",
    "C77_encoder",
    "C77_save_only",
    "C77_save_refused",
    "C77_save_unopened",
    "C77_restored",
    "C77_unread",
    "C77_restore_same",
    "C77_round",
    "C77_cut",
    "C77_kept_refuted",
    "C77_format_refuted",
    "C77_empty_refuted"
   ],
   "note": "C77_kept_refuted, C77_format_refuted and C77_empty_refuted document exceptions named in the statement."
  },
  {
   "property": "C78",
   "status": "proved",
   "theorems": [
    "C78_save_options",
    "C78_restore_options",
    "C78_types",
    "C78_size",
    "C78_memory",
    "C78_file",
    "C78_fd",
    "C78_restore_memory",
    "C78_restore_file",
    "C78_restore_fd",
    "C78_refused",
    "C78_restore_refused",
    "C78_delivers",
    "C78_save_format",
    "C78_restore_format"
   ],
   "note": ""
  },
  {
   "property": "C79",
   "status": "proved",
   "theorems": [
    "C79_written",
    "C79_fails",
    "C79_tuner",
    "C79_features_tuner",
    "C79_tree_tuner",
    "C79_outcomes",
    "C79_told",
    "C79_no_vector",
    "C79_random",
    "C79_other_type",
    "C79_passed",
    "C79_kept",
    "C79_calls",
    "C79_lost_refuted",
    "C79_state_refuted",
    "C79_short_refuted",
    "C79_missing_refuted",
    "C79_short",
    "C79_wraps"
   ],
   "note": "The statement names the four exceptions; each has a _refuted theorem. Callbacks asked while saving are taken not to change the tuner; a callback that itself is undefined while restoring is outside of C79_outcomes."
  },
  {
   "property": "C80",
   "status": "proved",
   "theorems": [
    "C80_two_calls",
    "C80_spaces",
    "C80_distributions",
    "C80_expressions",
    "C80_maps",
    "C80_keys_refuted",
    "C80_unpadded",
    "C80_trees",
    "C80_values_at",
    "C80_tuners",
    "C80_objects",
    "C80_objective_values",
    "C80_objective_counts",
    "C80_overrun_refuted"
   ],
   "note": "The exceptions are named in the statement; C80_keys_refuted and C80_overrun_refuted give witnesses, C80_unpadded and C80_objective_values say what is done instead. The results of evaluating objectives and of comparing features are given; ExprModel and CmpModel have them."
  },
  {
   "property": "C81",
   "status": "proved",
   "theorems": [
    "C81_tables",
    "C81_search",
    "C81_maps"
   ],
   "note": "C81_tables has no hypothesis about the hash function. An entry is found by hash value, length and comparison; that equal datums have equal hash values is C09/C10."
  },
  {
   "property": "C82",
   "status": "proved",
   "theorems": [
    "C82_arrays",
    "C82_enough_memory",
    "C82_after_oom_refuted",
    "C82_sort_nothing_refuted",
    "C82_limit",
    "C82_sizes"
   ],
   "note": "The exception is part of the statement: C82_after_oom_refuted shows that adding after a failed addition writes outside of the array; C82_sort_nothing_refuted that sorting an array that never had an element gives NULL to qsort (src/expression.c 1746, 1790). C82_arrays asks for room after a failure, C82_enough_memory needs no such condition while allocations succeed."
  },
  {
   "property": "C83",
   "status": "proved",
   "theorems": [
    "C83_lists",
    "C83_sorts",
    "C83_same_order",
    "C83_conditions",
    "C83_no_memory"
   ],
   "note": ""
  },
  {
   "property": "C84",
   "status": "proved",
   "theorems": [
    "C84_tuner"
   ],
   "note": "C84_tuner composes the codecs of C51, C73 and C76 and states the result on the whole tuner; that the restored configuration space accepts the same configurations is C76_same_configurations applied to the spaces it gives."
  },
  {
   "property": "C85",
   "status": "proved",
   "theorems": [
    "C85_features_tuner"
   ],
   "note": "C85_features_tuner composes the codecs of C51, C73 and C76 as C84_tuner does, with the features space; that the restored configuration space accepts the same configurations is C76_same_configurations applied to the spaces it gives."
  },
  {
   "property": "C86",
   "status": "proved",
   "theorems": [
    "C86_reader",
    "C86_tree_tuner"
   ],
   "note": "C86_tree_tuner composes the codecs of C51, C52 and C73; C86_reader relates the reader of tree spaces that records the space to that of C52."
  },
  {
   "property": "C87",
   "status": "proved",
   "theorems": [
    "C87_tree_tuner",
    "C87_tuner",
    "C87_features_tuner"
   ],
   "note": "C87_tuner, C87_features_tuner and C87_tree_tuner compose C79 with the spaces of C84, C85 and C86."
  },
  {
   "property": "C88",
   "status": "proved",
   "theorems": [
    "C88_saved",
    "C88_nothing",
    "C88_cases",
    "C88_refused_size",
    "C88_refused_data",
    "C88_tame",
    "C88_loaded",
    "C88_back",
    "C88_set",
    "C88_zero_size_is_a_query_refuted"
   ],
   "note": "The calls are kept in a trace and the application is an arbitrary function of the trace. Applications that themselves store outside what they are given are undefined behaviour and excluded (tame). C88_zero_size_is_a_query_refuted shows that the documented meaning of a zero size does not hold."
  }
 ]
}
