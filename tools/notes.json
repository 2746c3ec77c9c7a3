{
 "C04": {
  "note": "The claim that decoding never has undefined behaviour is refuted (C04_decoders_total_refuted, C04_overlong_refuted); the three cases are characterised exactly by C04_numbers and C04_composed. A string may extend past its announced size.",
  "status": "proved"
 },
 "C05": {
  "note": "C05_null_string_refuted: a string datum holding NULL, which the public constructors allow, is handed to strlen.",
  "status": "proved"
 },
 "C06": {
  "note": "C06_default_refuted witnesses the exception named in the statement (values 0.0, -0.0).",
  "status": "proved"
 },
 "C07": {
  "status": "proved"
 },
 "C08": {
  "note": "Arity and strings of at most 2^40 (a bound on memory), user data below 2^64 bytes."
 },
 "C10": {
  "note": "Exact characterisation; C10_strict_order_refuted records that the unrestricted claim fails on NaN.",
  "status": "proved"
 },
 "C12": {
  "note": "C12_union_exact and C12_union_covers_all_but_lost characterise the union and exactly which points are lost; C12_union_covers_refuted gives a lost point.",
  "status": "proved"
 },
 "C13": {
  "note": "C13_int_emptiness and C13_int_equality are exact; the refuted theorems witness the exceptions named in the statement.",
  "status": "proved"
 },
 "C15": {
  "note": "C15_get_keys_refuted witnesses that the intended claim is false.",
  "status": "proved"
 },
 "C16": {
  "note": "Full proof of the exact tables. C16_and_false_refuted records that AND is not Kleene's: false AND inactive is inactive.",
  "status": "proved"
 },
 "C17": {
  "status": "proved"
 },
 "C18": {
  "status": "proved"
 },
 "C19": {
  "note": "Full proof of the exact behaviour. C19_defined_refuted and C19_negative_refuted record that undefined behaviour is within reach: the code does not check for overflow.",
  "status": "proved"
 },
 "C20": {
  "note": "Full proof of the characterisation, exceptions included. C20_mixed_equal_refuted and C20_zeros_refuted are witnesses of the exceptions.",
  "status": "proved"
 },
 "C21": {
  "note": "C21_default_refuted witnesses the NaN exception named in the statement.",
  "status": "proved"
 },
 "C22": {
  "note": "Exact behaviour proved; C22_padding_refuted shows the padding the code intends does not happen.",
  "status": "proved"
 },
 "C25": {
  "note": "C25_index_range_refuted witnesses the truncation of the index named in the statement.",
  "status": "proved"
 },
 "C26": {
  "note": "C26_failed_unchanged_refuted witnesses that a failed set_values may have stored some values, as the statement says.",
  "status": "proved"
 },
 "C27": {
  "note": "Kahn's algorithm proved correct over the graph recomputed from the conditions; indices are truncated to 32 bits as in the code."
 },
 "C30": {
  "note": "The sampling of a distribution is a parameter of the model; hypothesis well_drawn: one well-formed value per parameter."
 },
 "C31": {
  "note": "The unrestricted claim is false: C31_default_valid_refuted (after a refused cyclic condition the default configuration ignores the conditions on the cycle) and C31_clause_error_refuted (a clause with IN over a parameter that became inactive is an error) exhibit the exceptions named in the statement.",
  "status": "proved"
 },
 "C34": {
  "note": "C34_refuted witnesses the exceptions named in the statement.",
  "status": "proved"
 },
 "C36": {
  "note": "C36_half_open_refuted witnesses the exceptions named in the statement.",
  "status": "proved"
 },
 "C38": {
  "note": "C38_partly_wanted_mixture_refuted is the exception stated in the property.",
  "status": "proved"
 },
 "C39": {
  "note": "C39_in_memory_refuted witnesses the overrun (2 components of dimension 3).",
  "status": "proved"
 },
 "C40": {
  "status": "proved"
 },
 "C42": {
  "note": "C42_refuted: a valid, sampled position without a node.",
  "status": "proved"
 },
 "C43": {
  "note": "The intended claim (such children are rejected) is refuted by C43_refuted; C43_below_itself is the exact behaviour.",
  "status": "proved"
 },
 "C44": {
  "note": "C44_cycle_refuted and C44_freed_refuted witness the exceptions named in the statement. Setting a distribution is only considered when memory is available (see C45).",
  "status": "proved"
 },
 "C45": {
  "note": "The _refuted theorems witness the exceptions named in the statement; C44_outcome says what the exceptional calls leave.",
  "status": "proved"
 },
 "C46": {
  "note": "The exception (NaN) is exhibited by C46_nan_refuted.",
  "status": "proved"
 },
 "C47": {
  "status": "proved"
 },
 "C48": {
  "note": "The original claim, that an evaluation that cannot be compared never removes an optimum, is false: C48_refuted; C48_failure says exactly what is lost.",
  "status": "proved"
 },
 "C49": {
  "note": "The size test is inverted in the code; the consequences are exhibited by C49_short_refuted and C49_long_refuted.",
  "status": "proved"
 },
 "C50": {
  "note": "The disagreement between check_features and check_features_values is exhibited by C50_agreement_refuted.",
  "status": "proved"
 },
 "C51": {
  "note": "The codecs of the spaces are parameters of the theorem (their outcome is a hypothesis). Exceptions: an evaluation told twice cannot be restored (C51_twice_refuted); counts whose sum wraps around 2^64 make the reader go out of bounds (C51_counts_refuted). User defined tuners are read with a vector of the application and are not modelled.",
  "status": "proved"
 },
 "C52": {
  "note": "The natural statement (generator and state are restored) is false for static spaces (generator) and for dynamic spaces (state and user data): C52_generator_refuted, C52_state_refuted. The property was reworded to what holds.",
  "status": "proved"
 },
 "C53": {
  "note": "C53_end_refuted, C53_moved_refuted and C53_write_refuted document exceptions named in the statement.",
  "status": "proved"
 },
 "C54": {
  "note": "C54_stale_refuted and C54_memory_refuted document the exceptions named in the statement.",
  "status": "proved"
 },
 "C56": {
  "status": "proved"
 },
 "C57": {
  "status": "proved"
 },
 "C59": {
  "note": "C59_announced_size_checked_refuted keeps the witness against the expectation that the size is checked.",
  "status": "proved"
 },
 "C60": {
  "note": "C60_set_object_retains_refuted witnesses the exception named in the statement.",
  "status": "proved"
 },
 "C62": {
  "note": "C62_int_span_refuted witnesses the overflow named in the statement.",
  "status": "proved"
 },
 "C63": {
  "status": "proved"
 },
 "C65": {
  "note": "C65_refuted witnesses the overflow. Allocation is modelled as refusing blocks above 2^56 bytes.",
  "status": "proved"
 },
 "C67": {
  "note": "GSL is not modelled: the table of types, the initial states and the draws are parameters. C67_refuted: on a host of the other byte order the generator silently starts anew (a property of the code, in the statement).",
  "status": "proved"
 },
 "C69": {
  "note": "C69_steps_refuted documents the exception of the statement: a crafted step count makes the deserializer write beyond its buffer.",
  "status": "proved"
 },
 "C73": {
  "note": "C73_twice_refuted: the same expression object used for two objectives is saved, and restoring it releases one expression twice.",
  "status": "proved"
 },
 "C74": {
  "note": "C74_exact_refuted: a roulette restored may differ in its last bits from the one saved, even so that a draw gives another index. C74_restored_refuted: a roulette or mixture with an infinite weight is made and saved but cannot be restored, nor a roulette whose weights sum up to more than 2^1022 when rounding makes a cell exceed 1.",
  "status": "proved"
 },
 "C75": {
  "note": "Refuted: integer sampling is not always defined (a draw of 2^63 is accepted and converted, a quantised one may overflow when multiplied by the step: C75_defined_refuted); with a logarithmic scale and the step 49 a draw of half a step gives 0, below the reported lower bound (C75_bounds_refuted).",
  "status": "proved"
 },
 "C76": {
  "note": "C76_shared_refuted: a condition set for two parameters, or a distribution given to two parameters, is accepted and saved, but reading the bytes back releases an object twice. C76_restored_refuted: a space with a clause that has become impossible to evaluate on the default configuration is saved but cannot be restored. C76_any_bytes_refuted: bytes that announce too many indexes for a distribution make the reader write outside of its block.",
  "status": "proved"
 },
 "C77": {
  "note": "C77_kept_refuted, C77_format_refuted and C77_empty_refuted document exceptions named in the statement.",
  "status": "proved"
 },
 "C79": {
  "note": "The statement names the four exceptions; each has a _refuted theorem. Callbacks asked while saving are taken not to change the tuner; a callback that itself is undefined while restoring is outside of C79_outcomes.",
  "status": "proved"
 },
 "C80": {
  "note": "The exceptions are named in the statement; C80_keys_refuted and C80_overrun_refuted give witnesses, C80_unpadded and C80_objective_values say what is done instead. The results of evaluating objectives and of comparing features are given; ExprModel and CmpModel have them.",
  "status": "proved"
 },
 "C81": {
  "note": "C81_tables has no hypothesis about the hash function. An entry is found by hash value, length and comparison; that equal datums have equal hash values is C09/C10."
 },
 "C82": {
  "note": "The exception is part of the statement: C82_after_oom_refuted shows that adding after a failed addition writes outside of the array; C82_sort_nothing_refuted that sorting an array that never had an element gives NULL to qsort (src/expression.c 1746, 1790). C82_arrays asks for room after a failure, C82_enough_memory needs no such condition while allocations succeed.",
  "status": "proved"
 },
 "C84": {
  "note": "C84_tuner composes the codecs of C51, C73 and C76 and states the result on the whole tuner; that the restored configuration space accepts the same configurations is C76_same_configurations applied to the spaces it gives."
 },
 "C85": {
  "note": "C85_features_tuner composes the codecs of C51, C73 and C76 as C84_tuner does, with the features space; that the restored configuration space accepts the same configurations is C76_same_configurations applied to the spaces it gives."
 },
 "C86": {
  "note": "C86_tree_tuner composes the codecs of C51, C52 and C73; C86_reader relates the reader of tree spaces that records the space to that of C52.",
  "status": "proved"
 },
 "C87": {
  "note": "C87_tuner, C87_features_tuner and C87_tree_tuner compose C79 with the spaces of C84, C85 and C86.",
  "status": "proved"
 },
 "C88": {
  "note": "The calls are kept in a trace and the application is an arbitrary function of the trace. Applications that themselves store outside what they are given are undefined behaviour and excluded (tame). C88_zero_size_is_a_query_refuted shows that the documented meaning of a zero size does not hold.",
  "status": "proved"
 }
}