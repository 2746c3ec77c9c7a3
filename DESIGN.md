# Formal model of CCS in Rocq — design

Source: `/repo` (argonne-lcf/CCS, C code in `src/` and `include/`), read as text only.
Everything is in `rocq/theories` (logical name `Verif`), Coq 8.16.1, standard library only.

Contents: [conventions](#conventions), [trusted base](#trusted-base),
[what is modelled](#what-is-modelled), [what is not](#what-is-not-modelled),
[per property](#per-property), [where the code disagrees](#where-the-code-disagrees-with-what-one-expects),
[testing the theorems](#testing-the-theorems).

## Conventions

* One family of files per module: `XModel.v` (Gallina transcription, function by function,
  each definition citing file and lines), `XSpec.v` (small independent specification),
  `XProofs.v` and further files (lemmas), `XProps.v` (the property theorems, each closed by
  `exact lemma`, with `Print Assumptions` beneath, and `Example`s that meet the hypotheses).
* Outcomes: `Ok v | Err code | UB reason` (`Base.v`). Undefined behaviour of the C code is the
  distinct outcome `UB`, never silently totalised: out-of-range shift, signed overflow,
  out-of-bounds access or use of freed memory, use of an unterminated string, use of an
  uninitialised value, conversion of a double that does not fit, division by zero, a loop that
  does not end. `UBFuel` is the value of an explicit-fuel recursion that ran out; theorems
  show that it does not occur.
* Theorem names start with the property id (`C01_...`). A theorem whose name ends in
  `_refuted` exhibits a witness showing that a natural, stronger statement is false of the
  code as modelled. Where the natural statement is false, the property of
  `properties.jsonl` is the exact characterisation that holds, exceptions included.
  (`_partial` would mark a restricted form; at present there is none.)
* Machine integers are in `Z`, wrapped or checked explicitly. Doubles are 64-bit patterns (`Z`
  in `[0,2^64)`); comparisons and arithmetic are those of `Coq.Floats.SpecFloat` (binary64,
  round to nearest even). `memcmp`, hashes and serialisation see the bits.
* Library functions that the code calls and that are not part of it are parameters, over
  which theorems quantify: HASH_JEN (`jen`), `log`, `exp`, GSL draws and generators, `malloc`
  (`mem`, which sizes are granted), application callbacks, `read`/`write` (a schedule).
* A handle is an address; the address of an object made by a modelled function is an argument
  of it. Structures that the code only reaches through pointers and never changes (parameters,
  expressions) are values.

## Trusted base

* Coq's kernel (8.16.1), its VM (`vm_compute`, in examples and in `_refuted` witnesses), and the
  statements themselves: models (`*Model.v`, `Base.v`, `Datum.v`) and specifications (`*Spec.v`).
* `Print Assumptions` is run after every property theorem. For all of them it prints `Closed
  under the global context`: no axiom, neither of this development nor of the standard
  library. (No functional extensionality, no classical axiom, no `Reals`, no primitive floats
  or integers.)
* `coqchk` lists seven constants of the standard library file `Coq.ssr.ssrunder` (`Under_rel`,
  `Under_rel_from_rel`, `Under_relE`, `Over_rel`, `over_rel`, `over_rel_done`,
  `under_rel_done`), which are fields of a sealed module of that file. They are in the context of
  any file that loads ssreflect's prelude; no theorem here uses them.
* No `Axiom`, `Parameter`, `Conjecture`, `Admitted`, `admit`, no functor or module type, no
  `Declare Module`, no disabled check, no plugin beyond `lia`/`nia` of the standard library.
* The transcription from C to Gallina, which was made by reading; it was not compared with
  executions.
* Platform: LP64, `int` of 32 bits, `char` of 8 bits, IEEE doubles, two's complement. Where the
  code depends on the byte order of the host, both are modelled.

## What is modelled

| files | source | left out or simplified |
|-------|--------|------------------------|
| `CodecModel` | `cconfigspace_internal.h` 280-1051: numbers, strings, blobs, datums, object headers; the buffer's announced size and its real memory are kept apart | |
| `FrameModel` | `cconfigspace.c` 145-323, 711-746: header of a serialised object, memory formats | the object's own codec is a parameter |
| `StreamModel` | `cconfigspace.c` 388-467, 805-947: file descriptors, blocking or not | |
| `FileModel` | `cconfigspace.c` 219-386, 469-803, 949-990: options, files, choice of the decoder, entry points | files are byte strings, failing system calls are arguments; an operation in progress is continued in the format it was started in |
| `CmpModel` | `datum_hash.h`, `base.h` 443-490 593-631, `binding_internal.h` 165-209 | HASH_JEN is abstract |
| `FloatModel` | the arithmetic of doubles | one NaN pattern results from arithmetic |
| `IntervalModel` | `interval.c`, `cconfigspace_internal.h` 8-26 | |
| `MapModel` | `map.c`, `map_deserialize.h` | uthash is a list of entries in insertion order (justified by C81); destroying a held object does not cascade (LifeModel does) |
| `ParamModel` | `parameter*.c`, `parameter_internal.h`, `parameter_deserialize.h` | allocation succeeds |
| `ExprModel` | `expression.c`, `expression_deserialize.h`, `expression_internal.h` | allocation succeeds; a shared node is the same as copies (what is read twice is modelled in SpaceCodecModel) |
| `ContextModel` | `context_internal.h`, `context.c`, `binding_internal.h`, parts of `configuration_space.c`, `objective_space.c`, `features_space.c` about parameters | allocation succeeds |
| `SpaceModel` | `configuration_space.c`: conditions, forbidden clauses, distributions, graph, checks, sampling | parameters and expressions are immutable; sampling of one distribution is an oracle here (DistModel and DistMemModel have it) |
| `DistModel`, `DistMemModel`, `DistParamModel` | `distribution*.c` : roulette, uniform, mixture tables, oversampling, sampling nested distributions into memory, sampling parameters | GSL draws, `log`, `exp` |
| `DistCodecModel` | `distribution_deserialize.h` and the serialisers of the five kinds, creation of normal and multivariate distributions | allocations of constructors, reference counts |
| `NormalModel` | `distribution_normal.c` 238-376: draws, rejection, rounding | GSL draws, `log`, `exp`; the strided and structure-of-arrays variants (the same loops) |
| `TreeModel` | `tree.c`, `tree_internal.h`, `tree_deserialize.h`, sampling of static spaces | reference counts, NULL arguments |
| `TreeSpaceModel`, `TreeConfModel` | `tree_space*.c`, `tree_configuration.c` and their deserialisers | the callback `del` |
| `RngModel` | `rng.c`, `rng_deserialize.h` | GSL |
| `EvalModel` | `objective_space.c`, `features_space.c`, `evaluation.c`, `features_evaluation.c`, `tree_evaluation.c` | arguments are live objects, unless the model looks at their type |
| `RestoreModel` | serialisation, comparison, hash of configurations, features, evaluations | reference counts; allocations of constructors |
| `SpaceCodecModel` | saving and restoring features and objective spaces | as above |
| `ConfCodecModel` | saving and restoring configuration spaces (`configuration_space.c` 57-299, `configuration_space_deserialize.h`) | as above; index cells written beyond their part of the block are taken to be undefined even where they only overwrite the clauses |
| `TunerModel`, `TunerCodecModel` | `tuner_random.c`, `features_tuner_random.c`, `tree_tuner_random.c` and the deserialisers | as above; the codecs of spaces are parameters of the tuner codec, given in `WholeModel`, `FeatWholeModel` and `TreeWholeModel` |
| `UserTunerModel` | `tuner_user_defined.c`, `features_tuner_user_defined.c`, `tree_tuner_user_defined.c`, their deserialisers, the checks of `tuner.c`, `features_tuner.c`, `tree_tuner.c` | callbacks are functions given as arguments; those asked while saving do not change the tuner; reference counts (LifeModel has them), allocations of constructors |
| `GetterModel` | the functions that fill an array of the application, statement by statement, with the array, its contents and NULL arguments: `context_internal.h` 121-145, `binding_internal.h` 65-87, and those of `configuration_space.c`, `objective_space.c`, `distribution_*.c`, `expression.c`, `map.c`, `parameter_categorical.c`, `tree.c`, `tree_configuration.c`, `tuner.c`, `*tuner_random.c`, `*evaluation.c` listed with C80 | what objects contain is given as lists (trees as heaps of TreeModel); results of evaluating objectives and comparing features are given; the temporary array of `ccs_expression_get_parameters` |
| `UthashModel` | `uthash.h` 78-520, 748-889, 1040-1139: the macros statement by statement over the memory of the application, with buckets, chains, growth, failing allocations and iteration | a handle is named by its element's address; the key pointer is the key it points to; HASH_JEN itself, HASH_SORT and HASH_SELECT (not used) |
| `ArrayModel` | `utarray.h` 54-231 and `configuration_space.c` 1124-1151: the macros statement by statement over blocks of bytes, with moving and failing allocations | every UT_icd of the library has no init, copy and dtor; qsort gives any order; the element given is its bytes (it is not in the array itself); insert, inserta, concat, erase, find, renew and extend_back are not used by the library |
| `DlistModel` | `src/utlist.h` 641-653, 708-748 (the DL macros), `src/configuration_space.c` 47-55, 1154-1213 | memory as one function per field, with the set of held addresses; the lists of parents and children are lists (C82); the sorted indexes are appended to a list; calloc of 0 bytes is taken to succeed or fail as the address says |
| `WholeModel` | the common data of tuners with both spaces (`tuner_internal.h` 56-91, `tuner_deserialize.h` 19-36): the codec of random tuners with the codecs of configuration and objective spaces in their places, one handle map for the spaces and the history | addresses of new objects are given; the allocations of constructors succeed |
| `FeatWholeModel` | `features_tuner_internal.h` 45-104, `features_tuner_deserialize.h` 19-42: the codec of random features tuners (`TunerCodecModel`) with those of the three kinds of spaces in the places left for them | as in `WholeModel` |
| `TreeWholeModel` | `tree_tuner_internal.h` 47-91, `tree_tuner_deserialize.h` 19-150, `tree_space_deserialize.h` 110-185: the codec of random tree tuners (`TunerCodecModel`) with those of tree spaces and objective spaces in the places left for them; the reader of tree spaces with its handle map | as in `WholeModel` and `TreeSpaceModel`; the nodes of trees are in a memory of their own |
| `UserWholeModel` | the same lines as `UserTunerModel`, `WholeModel`, `FeatWholeModel` and `TreeWholeModel`: the codecs of user defined tuners with those of their spaces in the places left for them | as in these; a dynamic tree space that would take the vector of the tuner for its own is given an arbitrary vector |
| `HookModel` | `src/cconfigspace.c` 113-143 (user data and serialisation callback of an object), `src/cconfigspace_internal.h` 1080-1197 (user data in the binary format): which callback is called, when, with which arguments | the application is an arbitrary function of the calls made so far; pointers are numbers; error stack frames left out. `CodecModel` keeps only the bytes produced, and C88 shows when this is right |
| `LifeModel` | reference counts, destruction, constructors, mutators and their error paths over all types of objects | contents reduced to owned references; decisions that do not concern lifetimes are arguments; one thread; addresses are not reused |
| `ErrorStackModel` | `error_stack.c` and the macros that fill it | `vsnprintf` failures |

Each definition cites the lines it transcribes. Comments at the head of each model tell its
simplifications.

## What is not modelled

* Accessors that copy a field (`ccs_*_get_type` and the like), `ccs_get_result_name`,
  `ccs_get_version`, `ccs_init`.
* `ccs_set_thread_error`-like interplay of threads other than the error stacks; the code has no
  locks.
* Bindings for other languages, Kokkos connector, build system, samples, tests.
* Allocation failures inside constructors, except in LifeModel (which has them for all modelled
  functions), ErrorStackModel and the arrays of deserialisers.
* The numerical quality of random numbers (what GSL guarantees) and statistical claims.

## Per property

| id | modelled | how proved |
|----|----------|-----------|
| C01–C03 | scalar codecs as loops over buffers with sizes | induction on the groups of 7 bits and on bytes; `encodes`/`decodes` predicates composed |
| C04 | the same decoders on arbitrary bytes, with explicit UB | exact characterisation of the results on all byte lists; witnesses of UB |
| C05 | datum serialiser and deserialiser | case analysis over C01–C03 |
| C06, C62, C21–C24 | parameters: creation, check, conversion of samples in place, codec | membership specification; memory model for the in-place conversion |
| C07, C16–C20, C63 | expressions: creation, evaluation, parameters, codec with fuel | independent denotational tables; structural induction |
| C08, C40–C43, C65 | trees as heap of nodes with parent and index | invariant over histories of calls; structural induction |
| C09, C10, C70 | comparison and hash of datums, bindings, evaluations | case analysis; lexicographic orders on keys |
| C11–C13 | intervals over integers and float keys | case analysis and lia |
| C14, C15, C60, C61 | maps | refinement to a functional dictionary over histories; reference counts; codec |
| C25, C26, C66 | contexts, bindings, objectives | invariant over histories |
| C27–C31 | condition graph, Kahn's algorithm, activity, check, sample, default | graph theory by induction; uniqueness of the solution; draws as oracle |
| C32 | distribution wrappers partition the parameters | invariant over histories |
| C33–C37, C64 | dichotomic search, normalisation, uniform sampling, oversampling, rejection | loop invariants; error analysis of sums of doubles |
| C75 | creation, bounds and samples of normal distributions, with fuel for the loops of refused draws | rounding of doubles; soundness for every fuel, completeness for enough |
| C38, C39 | sampling nested distributions, creation of mixtures in memory | structural induction on distributions; exact condition for the overrun |
| C44, C45 | heap of reference counted objects | invariant over all histories of calls, each call with all its failures |
| C46–C50, C56, C57 | evaluations, comparison, random tuners | order theory, invariant over histories |
| C51, C52, C67–C69, C71–C74, C76 | saving and restoring tuners, tree spaces, generators, tree configurations, configurations, features, evaluations, features, objective and configuration spaces, distributions | a specification of the layout (`wire_…`) and of every outcome of reading (`…_outcome`), each reader proved to give that outcome on every buffer that begins with the layout and NOT_ENOUGH_DATA on truncations |
| C53 | descriptor state machine over a schedule of reads and writes | induction over the schedule |
| C77 | file system as a map from paths to bytes, outcomes of system calls as arguments | case analysis; round trip through the framing lemmas |
| C78 | the entry points over memory, files and descriptors | options by induction over the list; the rest from C53 and C77 |
| C79 | user defined tuners over arbitrary callbacks | layout and outcomes built on those of C51; calls by case analysis. C79_short: with less state than announced the size is still exact and the rest of the state is what the buffer held |
| C80 | programs over the memory of the caller, cell by cell | a specification of one getter (`gives`), loops by induction on the elements, one lemma per function |
| C81 | hash tables as doubly linked lists and chains in memory, over interactive applications | links as functions of addresses; list and chain lemmas; refinement to the list of entries by induction over the application |
| C82 | arrays as blocks of bytes, over interactive applications | bytes of a block split at the elements; refinement to lists by induction over the application; loop invariant for the repetitions; witnesses for the failure |
| C83 | doubly linked lists in memory, over interactive applications; the topological sort over them | segments of links, refinement to lists by induction over the application; simulation of the sort on lists (C27) |
| C84 | a random tuner saved and restored with its spaces | composition of C51, C73 and C76: the restored contexts are those of added parameters, values settle in the parameters read back, the handle map of the spaces serves the history |
| C85 | a random features tuner saved and restored with its three spaces | as C84; the parameters of the three spaces are disjoint parts of one heap, each space good over its part |
| C86 | a random tree tuner saved and restored with its spaces | the reader with a handle map gives what C52's gives (C86_reader), so C52, C73 and C51 compose; over a dynamic space the bytes that C52 leaves in the buffer are refused by the reader of objective spaces |
| C87 | user defined tuners saved and restored with their spaces | C79 composed with the restored spaces and evaluations of C84, C85 and C86; what the application is told is the history of these theorems, and the outcome is a function of its answer (`user_back`). Where a callback is itself undefined nothing is said |
| C88 | callbacks that save and load user data | the calls are recorded in a trace; composition of the size codec with the two calls. Who is called is a relation (`served`), not the code's nest of conditions. The claim of the documentation that a zero size is a query is refuted |
| C54 | error stacks of threads | history invariant |
| C55, C58, C59 | header codec, byte order, announced size | composition of C01–C03 |

`MANIFEST.json` (written by `tools/manifest.py`) lists the theorems of each property.

## Where the code disagrees with what one expects

Each of these is a theorem `…_refuted` with a concrete witness, or an exact characterisation that
includes the exception. The statement in `properties.jsonl` says what does hold.

* C04: The claim that decoding never has undefined behaviour is refuted (C04_decoders_total_refuted, C04_overlong_refuted); the three cases are characterised exactly by C04_numbers and C04_composed. A string may extend past its announced size.
* C05: C05_null_string_refuted: a string datum holding NULL, which the public constructors allow, is handed to strlen.
* C06: C06_default_refuted witnesses the exception named in the statement (values 0.0, -0.0).
* C10: Exact characterisation; C10_strict_order_refuted records that the unrestricted claim fails on NaN.
* C12: C12_union_exact and C12_union_covers_all_but_lost characterise the union and exactly which points are lost; C12_union_covers_refuted gives a lost point.
* C13: C13_int_emptiness and C13_int_equality are exact; the refuted theorems witness the exceptions named in the statement.
* C15: C15_get_keys_refuted witnesses that the intended claim is false.
* C16: Full proof of the exact tables. C16_and_false_refuted records that AND is not Kleene's: false AND inactive is inactive.
* C19: Full proof of the exact behaviour. C19_defined_refuted and C19_negative_refuted record that undefined behaviour is within reach: the code does not check for overflow.
* C20: Full proof of the characterisation, exceptions included. C20_mixed_equal_refuted and C20_zeros_refuted are witnesses of the exceptions.
* C21: C21_default_refuted witnesses the NaN exception named in the statement.
* C22: Exact behaviour proved; C22_padding_refuted shows the padding the code intends does not happen.
* C25: C25_index_range_refuted witnesses the truncation of the index named in the statement.
* C26: C26_failed_unchanged_refuted witnesses that a failed set_values may have stored some values, as the statement says.
* C31: The unrestricted claim is false: C31_default_valid_refuted (after a refused cyclic condition the default configuration ignores the conditions on the cycle) and C31_clause_error_refuted (a clause with IN over a parameter that became inactive is an error) exhibit the exceptions named in the statement.
* C34: C34_refuted witnesses the exceptions named in the statement.
* C36: C36_half_open_refuted witnesses the exceptions named in the statement.
* C38: C38_partly_wanted_mixture_refuted is the exception stated in the property.
* C39: C39_in_memory_refuted witnesses the overrun (2 components of dimension 3).
* C42: C42_refuted: a valid, sampled position without a node.
* C43: The intended claim (such children are rejected) is refuted by C43_refuted; C43_below_itself is the exact behaviour.
* C44: C44_cycle_refuted and C44_freed_refuted witness the exceptions named in the statement. Setting a distribution is only considered when memory is available (see C45).
* C45: The _refuted theorems witness the exceptions named in the statement; C44_outcome says what the exceptional calls leave.
* C46: The exception (NaN) is exhibited by C46_nan_refuted.
* C48: The original claim, that an evaluation that cannot be compared never removes an optimum, is false: C48_refuted; C48_failure says exactly what is lost.
* C49: The size test is inverted in the code; the consequences are exhibited by C49_short_refuted and C49_long_refuted.
* C50: The disagreement between check_features and check_features_values is exhibited by C50_agreement_refuted.
* C51: The codecs of the spaces are parameters of the theorem (their outcome is a hypothesis). Exceptions: an evaluation told twice cannot be restored (C51_twice_refuted); counts whose sum wraps around 2^64 make the reader go out of bounds (C51_counts_refuted). User defined tuners are read with a vector of the application and are not modelled.
* C52: The natural statement (generator and state are restored) is false for static spaces (generator) and for dynamic spaces (state and user data): C52_generator_refuted, C52_state_refuted. The property was reworded to what holds.
* C53: C53_end_refuted, C53_moved_refuted and C53_write_refuted document exceptions named in the statement.
* C54: C54_stale_refuted and C54_memory_refuted document the exceptions named in the statement.
* C59: C59_announced_size_checked_refuted keeps the witness against the expectation that the size is checked.
* C60: C60_set_object_retains_refuted witnesses the exception named in the statement.
* C62: C62_int_span_refuted witnesses the overflow named in the statement.
* C65: C65_refuted witnesses the overflow. Allocation is modelled as refusing blocks above 2^56 bytes.
* C67: GSL is not modelled: the table of types, the initial states and the draws are parameters. C67_refuted: on a host of the other byte order the generator silently starts anew (a property of the code, in the statement).
* C69: C69_steps_refuted documents the exception of the statement: a crafted step count makes the deserializer write beyond its buffer.
* C73: C73_twice_refuted: the same expression object used for two objectives is saved, and restoring it releases one expression twice.
* C74: C74_exact_refuted: a roulette restored may differ in its last bits from the one saved, even so that a draw gives another index. C74_restored_refuted: a roulette or mixture with an infinite weight is made and saved but cannot be restored, nor a roulette whose weights sum up to more than 2^1022 when rounding makes a cell exceed 1.
* C75: C75_defined_refuted: integer sampling converts a draw of 2^63, or overflows when multiplying by the step. C75_bounds_refuted: a quantised logarithmic integer may be 0, below the reported bound.
* C76: C76_shared_refuted: a condition or a distribution that serves two parameters is saved, but reading it back releases an object twice. C76_restored_refuted: a clause that has no value on the default configuration keeps the space from being restored. C76_any_bytes_refuted: bytes can make the reader write outside of its block.
* C77: C77_kept_refuted: a save that fails after opening the file destroys the object saved there before; C77_format_refuted: so does asking for an unknown format. C77_empty_refuted: an empty file is a SYSTEM error.
* C79: C79_lost_refuted: optima outside of the history are saved but cannot be restored.
  C79_state_refuted: without deserialize_state the saved state and optima are dropped in silence.
  C79_short_refuted: a state shorter than announced saves earlier contents of the buffer.
  C79_missing_refuted: a history shorter than announced makes saving follow a NULL pointer.
* C80: C80_keys_refuted: `ccs_map_get_keys` tells values (also C15). C80_overrun_refuted:
  `get_objective_values` with an array smaller than the number of objectives writes after its end.
  Possible values and positions of tree configurations are not padded (C80_unpadded): the loop of
  `parameter_categorical.c` 408-410 has its bounds exchanged.
* C81: no defect. The theorem assumes that no allocation of 64 GiB succeeds: the growth from 2^31
  buckets shifts by 32 and doubles the number of buckets to 0.
* C82: `utarray_reserve` (utarray.h 90-100) stores the new number of slots before it calls realloc.
  When realloc fails the callers report CCS_RESULT_ERROR_OUT_OF_MEMORY and keep the array (history of
  a tuner, parameters of a space), and the next addition writes past the block, or at NULL for a
  first addition. `ccs_expression_get_parameters` sorts the array of an expression without variables,
  handing NULL to qsort, which the C standard excludes (glibc does nothing). An array of 2^31 elements
  makes the doubling loop wrap around for ever.
* C79: The serialisers of user defined tuners allocate one array for `history_size + num_optima` pointers without checking that the sum fits in a `size_t` (`tuner_user_defined.c` 44-56 and 119-126, and the two siblings). An application whose counts wrap around is called with a count larger than the array (C79_wraps).
* C86: A random tree tuner over a dynamic tree space is written but cannot be restored: the reader of dynamic spaces leaves as many bytes as the user data take in the buffer (C52_state_refuted), where the objective space is then looked for. The theorem says INVALID_TYPE when there are no user data; with user data the first byte is their size, and what follows is read as an object of that type, so that the outcome depends on the user data.
* C87: A user defined tree tuner over a dynamic tree space is restored with one pair of options, `vector` and `data`, for both: `tree_tuner_deserialize.h` 250-285 passes the options with the vector of the tuner on to `tree_space_deserialize.h` 76-94, which casts the same pointer to the vector of a tree space and calls through it. The types do not agree, so that no vector is right for both. C87_tree_tuner is about static tree spaces, where the vector is not looked at; by C86 a dynamic one is not restored even with the vector of its own.
* C88: `include/cconfigspace/base.h` 829-834 tells the serialisation callback that `serialize_data_size` "can be zero when querying the size". A callback with nothing to save is called again with size zero, a non-NULL `serialize_data` and a NULL `serialize_data_size_ret` (`cconfigspace_internal.h` 1139-1151): if it takes a zero size for a query it stores through NULL (C88_zero_size_is_a_query_refuted). The same header says that `ccs_object_set_serialize_callback` accepts a NULL callback and that it refuses it with INVALID_VALUE; the code accepts it (C88_set).

Further observations made while reading, not stated as theorems:

* Parameter, expression and distribution deserialisers release an object twice when its handle
  is in the map already (DUPLICATE_HANDLE); C73 shows how an ordinary space gets there.
* `ccs_dynamic_tree_space` sampling walks the tree that exists and never asks the callback.
* The features tuner deserialiser leaks what it holds when its data cannot be read; an
  unsupported type leaks the handle map.
* No GSL error handler is installed, so that invalid arguments of GSL functions abort.
* A memory-mapped file is mapped before it is given its size.

## Testing the theorems

`seeded/LOG.jsonl` records deliberate bugs: an edit of one model definition like a realistic
programming error, made in a scratch copy, the claim that it breaks and the theorems that no
longer prove. Where a bug survived, the theorem named under `theorems_tightened` was added or
strengthened.
