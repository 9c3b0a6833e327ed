# DESIGN — Rocq model of OpenNARS-for-Applications

(Coq 8.16.1; source of truth: the C files in /repo/src, read as text, never run.)

## Approach

* Model files (`*M.v`) contain only definitions, each with a comment citing the C file
  and lines.  Proof files (`*P.v`) hold lemmas.  `Props*.v` hold only the property
  theorems, each closed by `exact`, with `Print Assumptions` under it and with `Example`s
  that show concrete instances of the hypotheses.
* Outcomes.  `res A := Ok a | Abort | UB`: `Abort` is a failed call of ONA's own
  `assert(bool, char*)` (always compiled in, prints and exits), `UB` is a C undefined
  behaviour (out-of-bounds access, NULL dereference).  Nothing is assumed away silently.
* Numbers.  C `double` is IEEE binary64 with round-to-nearest-even: Flocq's
  `binary_float 53 1024` (BinarySingleNaN), fully executable, with NaN and infinities.
  (build.sh compiles with `-std=c99 -mfpmath=sse -msse2`, no -ffast-math, no contraction.)
  `long` is 64-bit two's complement; where overflow matters the wrap is explicit,
  elsewhere Z is used and the comment says so.  `pow`, `log2` and `sqrt` are libm calls: `pow`/`log2`
  are Section variables with the assumptions used written in each theorem's statement.
* Pointers into fixed arrays become indices / slot numbers; a function that mutates
  through a pointer returns the new value.
* Loops become structural recursion over lists/nat or recursion on explicit fuel, where
  fuel exhaustion is a separate outcome which a theorem excludes.
* Where the unchanged code violates a property, a theorem with the suffix `_refuted`
  exhibits the witness, and what does hold is proved beside it.

## Plan per property

| id | property | model and proof |
|---|---|---|
| C01 | Derived evidence comes only from the premises | StampM: lists of ids, zip with truncation. Spec: interleaving by index. Induction. |
| C02 | Evidence overlap check is exact | StampM: nested loop with early exit; iff by induction. |
| C03 | A conclusion is recognised as overlapping with its own premises | StampM: corollary when the base is not truncated; `_refuted` witness for truncated bases. |
| C04 | Stamp equality means same evidence | StampM: `_refuted` witness with duplicates; positive iff for duplicate-free stamps. |
| C05 | Truth values stay in range | TruthM on binary64; Flocq rounding monotonicity; one lemma per truth function. |
| C06 | Revision never loses confidence and stays between the opinions | TruthM: float bounds by min/max structure; exact-arithmetic (R) betweenness; order independence with Flocq commutativity. |
| C07 | Chaining inference never gains confidence | TruthM: product of values in [0,1] rounds below each factor. |
| C08 | Projection and eternalisation only discount | TruthM with pow as an oracle with range [0,1]. |
| C09 | Expectation is a probability and orders truth values | TruthM, float range; monotonicity by monotonicity of rounding. |
| C10 | Accepted input truth values never crash the reasoner | `_refuted` witnesses computed in binary64; positive theorem for confidences <= 0.99. |
| C11 | Subterm extraction returns exactly the subterm | TermM: 64-slot arrays; abstraction to trees; extraction = subtree. |
| C12 | Subterm replacement is exact or reported as failed | TermM: override at a leaf position; failure iff does not fit. |
| C13 | Term complexity and atom occurrence are those of the tree | TermM: node count of the tree. |
| C14 | Terms compare equal iff they are the same term | TermM + HashM: hash-cache validity invariant. |
| C15 | Every hash selects an existing bucket | HashM: explicit 64-bit wrap; sign bit argument with Z bit lemmas. |
| C16 | Random choices are bounded and reproducible | HashM: LCG with mod 2^64. |
| C17 | The hash table is a finite map | HashTableM: buckets as lists of slots, refinement to association function, any hash function. C17_longest_chain: the reported longest chain is the greatest number of stored keys sharing a bucket. |
| C18 | The hash table loses no storage | HashTableM: permutation invariant of free stack ++ used slots. |
| C19 | Deleting an absent key is harmless | HashTableM: `_refuted`. |
| C20 | The stack is a bounded LIFO | StackM refinement to list. |
| C21 | The priority queue yields extremes | PQueueM: array model of the min-max heap, any total preorder; heap-order invariant for each operation. |
| C22 | The priority queue never loses or invents elements | PQueueM: Permutation statements. |
| C23 | Storage slots of a priority queue are never shared | PQueueM: NoDup of addresses, permutation of 0..cap-1. |
| C24 | Rebuilding restores order after arbitrary priority changes | PQueueM: Rebuild on arbitrary arrays. |
| C25 | Removing an inner element keeps the queue ordered | PQueueM: `_refuted` witness for PopAt. |
| C26 | Belief tables are bounded and hold valid entries | TableM lists. |
| C27 | Belief tables are ranked | TableM sortedness. |
| C28 | Revising a table entry merges evidence of equal statements only | TableM + InferenceM. |
| C29 | The occurrence index remembers exactly the newest concepts | RingM: array ring refined to list of newest items. |
| C30 | The inverted atom index is exact | InvIndexM: chains with a free pool. |
| C31 | Usefulness is a bounded score | UsageM over binary64 / exact. |
| C32 | Each input is independent evidence | EventM: state machine over histories. |
| C33 | Belief update keeps the better opinion | InferenceM over binary64 truths. |
| C34 | Concept memory is consistent | MemoryM: PQ + hash table + inverted index; invariant by induction over histories. SysS/SysP: the same invariant along whole lives of the reasoner (all of CycleM) and sessions of the shell. |
| C35 | Forgetting drops the least useful concept | MemoryM: corollary of the PQ eviction theorem. |
| C36 | Attention queues are bounded, duplicate free and filtered | MemoryM: cycling queues. |
| C37 | Symbols are interned faithfully | AtomsM: hash-table based interning; 16-bit index; off-by-one `_refuted`. |
| C38 | Unification is sound | VariableM: Unify2 over arrays; soundness via substitution positions. |
| C39 | Unification is complete on matching instances | VariableM. |
| C40 | Normalising variables only renames | VariableM: `_refuted` + positive class. |
| C41 | Introducing variables only generalises | VariableM. |
| C42 | Narsese parsing is total and memory safe | ParserM with UB outcome; `_refuted` for nesting depth. |
| C43 | Input text length is enforced by every stage | ParserM: length bounds. |
| C44 | Printing then parsing gives the same term | ParserM: printing of trees, parse of printed text. |
| C45 | Operations are registered where asked and only there | NARM: operation table. |
| C46 | Operations run only on sufficiently desired decisions | DecisionM. |
| C47 | Babbling picks only enabled operations | DecisionM. |
| C48 | Questions get the best stored answer | NARM: question loops; op-10 `_refuted`. |
| C49 | Implausible statement shapes are never admitted | NALM: filters. |
| C50 | Derivations record their premises' evidence and time | InferenceM. |
| C51 | Averaged time offset stays between the observed ones | InferenceM exact arithmetic + float bounds. |
| C52 | Time advances one tick per cycle | NARM: clock. |
| C53 | Concurrent cycles and inputs are serialised | UdpM: interleaving semantics with a mutex. |
| C54 | Attention values stay in range | CycleM: priorities in binary64. |
| C55 | Failed anticipations only weaken the responsible link | DecisionM/TableM. |
| C56 | Operation sequences are length limited | CycleM (`correlate`, `build_sequence`), SeqS (`events`): the only sequence a composing step forms has at most 3 events; counterexample with nested sequences. |
| C57 | Goal decomposition is faithful | CycleM (`GoalSequenceDecomposition`) against the relation `subgoal` of SeqS; out-of-bounds write for 5 events. |
| C58 | Shell commands are dispatched exactly | ShellM: decision list over strings. |
| C59 | Symmetric connectors and set terms are parsed as their canonical operators | ParserM. |
| C60 | Declarative inference follows exactly the documented rules | RulesM: rule texts of NAL.h read by the parser model; spec by instantiation of patterns on trees. |
| C61 | No input line crashes the shell | ShellM with UB outcome; `_refuted` witnesses; setting commands with numbers in range proved defined. |
| C62 | *reset gives a fresh system with the same settings | ShellM: reset state compared with the start state; `_refuted`: imported stamp survives. |
| C63 | The network server starts and stops cleanly | UdpM: well-founded measure of stopped states, invariant; `_refuted`: dangling time step address. |
| C64 | An accepted belief is remembered | MemoryM: AddEvent against AddS.v (what a concept becomes), AddS2.v (declarative implications); in sessions by C65 (stamps are well formed); `_refuted`: link written into the concept that evicted the target. |
| C65 | Everything held rests on inputs | EvidS (spec), EvidP1–P4: a property of stamps kept by `Stamp_make` walked through every function of the cycle; ids below the counter, monotone across nested cycles; lives and shell sessions by induction. |
| C66 | Links are learned from observed succession | LearnS (spec), LearnP (one connection = truth, term, generalisations, `linked` of C64), LearnP2 (the loop over recent operations as closure of marks and connections). |
| C67 | Goals give rise to subgoals | SubgoalS (spec relation `goal_phase`), SubgoalP (loop over link tables with removal while iterating; visits of related concepts by marks), SubgoalP2 (phases of a cycle). ShapeP1-3: in every life all link tables are well-formed and no visit mark exceeds the counter (also discharges the hypothesis of C57). |
| C68 | Inference in a cycle | InferS (spec relations `concludes`, `by_matching`, `combined`, `looked_at`, `rounds`), InferP (conclusions: told, dropped, generalised; matching exact), InferP2 (premises, marks, rounds, threshold). Completeness of the visit of related concepts is not proved: saved chain pointers may go stale while conclusions are told. |
| C69 | Perception and comparison of belief events | PerceiveS (spec: `noticed`, `noticed_everywhere`, `looked_back`, `fresh`, `measurement`, `comparison`), PerceiveP (visit of related concepts, each exactly once, by marks), CompareP (term positions of the constructed statement), PropsPerceive. Finding: the end mark of the constructed property keeps the parts of a compound attribute below it (Cycle.c 566-568). |
| C70 | Execution of a decision | ExecS (spec: `alike`, `reduced`, `implication_told`, `generalised_from_all`, `answer`, `carried_out`, `failure_assumed`), ExecP (case analysis of Decision_Execute, exact in both directions; `reduced` is functional), PropsExec. |
| C71 | Metrics to a Graphite server | MetricM (Metric.c, UDP_SendData, the C library's sprintf %s/%d, strlen on a byte array), MetricS (spec: decimal notation `numeral` by value, `statsd`, `carries`, `fits`), MetricP (notation unique both ways, writing into the array), PropsMetric. Full claim refuted: buffer overrun before the length check, failed socket never retried, descriptor 0. |
| C72 | Command line | MainM (main.c as a function from arguments to the list of what is started), MainS (spec: `named`, `iterations` by the value of a text, `examples`, `inspected`, `command`), PropsMain (equivalence of both, by determinism of the spec). Refuted: each argument used once; no crash. |
| C73 | Printed evidence | StampPrintM (Stamp_print), StampPrintS (spec: `listed`, `ids_of`, `filled`), PropsStampPrint (through the shell's dispatch C58 and ShellP2's reading of numbers). |
| C74 | Truth formulas | TruthM at the instance `realA`; PropsTruthExact has its own specification: `chance` (independent events), `conf_of`, `truth_table`. One case per truth function. |

## Trusted base

* Coq 8.16.1's kernel (type checker, and the VM for `vm_compute` proofs, which coqchk re-checks
  without the VM).  No plugin, no extraction, no native_compute, no switched-off check, no axiom of
  our own; no functor or module type.
* The axioms that `Print Assumptions` lists, all of Coq's standard library and all entering through
  its real numbers (on which Flocq's specification of binary64 is stated):
  `ClassicalDedekindReals.sig_forall_dec`, `ClassicalDedekindReals.sig_not_dec`,
  `FunctionalExtensionality.functional_extensionality_dep`, `Classical_Prop.classic`.  Per theorem (generated
  by tools/assumptions.py):

<!-- assumptions -->
* closed under the global context (no axioms) — 88 theorems: C01_derived_evidence_from_premises, C01_derived_evidence_pointwise, C02_overlap_exact, C03_conclusion_overlaps_premises, C03_disjoint_premises_no_repetition, C03_overlap_with_derived_exact_if_fits, C03_overlap_with_derived_exact_refuted, C03_overlap_with_derived_sound, C04_equal_iff_same_evidence, C04_equal_symmetric, C04_equal_symmetric_refuted, C11_extract_any_array, C11_extract_is_the_subterm, C12_replace_compound_is_exact_refuted, C12_replace_leaf_exact_or_failure_reported, C13_complexity_is_tree_size, C13_has_atom_iff_occurs, C14_equal_iff_same_atoms, C14_same_tree_same_term, C15_hash_selects_existing_bucket, C16_random_sequence_is_a_function_of_the_state, C16_random_values_in_range, C17_hash_table_is_a_finite_map, C17_longest_chain, C18_no_storage_lost, C19_delete_absent_is_harmless_refuted, C19_delete_absent_outcomes_partial, C20_push_on_full_is_reported_refuted, C20_stack_is_bounded_lifo, C21_pop_max_is_maximum, C21_pop_min_is_minimum, C22_push_adds_refuses_or_replaces_minimum, C23_slots_never_shared, C24_rebuild_restores_order, C25_pop_at_keeps_order_refuted, C25_pop_at_removes_exactly_partial, C29_kth_newest, C30_index_is_exact, C37_interning_partial, C37_last_symbol_becomes_null_refuted, C37_long_names_merge_refuted, C37_numbers_are_kept, C40_no_clash, C40_normalise_partial, C40_normalise_refuted, C41_introduce_conjunction_partial, C41_introduce_implication_partial, C41_introduce_refuted, C42_malformed_refuted, C42_too_long_refused, C42_well_formed_partial, C43_text_stages_fit, C43_tokens_fit_partial, C43_tokens_fit_refuted, C44_round_trip_partial, C44_round_trip_refuted, C45_every_name_refuted, C45_refused, C45_registration_partial, C45_rename_only_there_refuted, C45_rename_slot, C47_babbling_arguments, C49_filter_exact, C49_filter_total_partial, C49_filter_total_refuted, C53_inputs, C53_mutual_exclusion, C58_one_reading, C58_trim, C59_compositional, C59_copula_code, C59_plain_text_kept, C60_reduction, C60_rules_read, C63_stop, C63_timestep_refuted, C70_feedback, C70_implication, C71_history, C71_one_metric, C71_one_socket_refuted, C71_retry_refuted, C71_unambiguous, C72_arguments_of_the_server_refuted, C72_command_line, C72_missing_argument_refuted, C73_printed, C73_unambiguous.
* `ClassicalDedekindReals.sig_forall_dec`, `FunctionalExtensionality.functional_extensionality_dep` — 4 theorems: C06_revision_exact, C51_average_between, C55_frequency_falls_exact, C74_truth_functions_exact.
* `ClassicalDedekindReals.sig_forall_dec`, `ClassicalDedekindReals.sig_not_dec`, `Classical_Prop.classic`, `FunctionalExtensionality.functional_extensionality_dep` — 157 theorems: C05_max_confidence_value, C05_revision_stays_in_range, C05_truth_functions_stay_in_range, C06_revision_never_loses_confidence, C06_revision_order_irrelevant, C07_confidence_never_grows, C08_eternalise_discounts, C08_farther_is_weaker, C08_projection_only_discounts, C09_confidence_moves_expectation_away_from_half, C09_expectation_is_probability, C09_expectation_monotone_in_frequency, C10_any_input_truth_is_revisable_refuted, C10_confident_inputs_never_abort_refuted, C10_ordinary_inputs_never_abort_partial, C21_pop_max_is_maximum_double, C21_pop_min_is_minimum_double, C26_add_is_exact, C26_remove_is_exact, C26_table_is_bounded, C27_table_is_ranked, C28_overlapping_evidence_is_not_merged_refuted, C28_revision_merges_only_equal_statements, C31_range, C31_unused_decays_partial, C31_unused_never_increases_refuted, C31_use_increases_partial, C32_inputs_are_independent, C32_next_input_id, C32_reset_clears_import_refuted, C33_belief_update, C34_all_sessions, C34_memory_is_consistent, C34_memory_is_safe, C34_memory_of_a_life_is_consistent, C34_memory_of_a_session_is_consistent, C35_eviction_in_a_life, C35_eviction_in_a_session, C35_one_least_useful_concept_is_evicted, C36_admission, C36_attention_queues, C36_queues_of_a_life, C36_queues_of_a_session, C36_selection_takes_the_best, C36_weak_events_are_ignored, C38_substitute_exact_or_failure_reported, C38_unify_analogy_partial, C38_unify_sound_partial, C38_unify_sound_refuted, C39_unify_complete, C42_every_text_refuted, C42_sentence, C42_sentence_offset, C42_sentence_truth, C45_same_lookup, C46_best_of_several_goals, C46_best_option_is_chosen_partial, C46_one_execution_per_cycle, C46_only_above_threshold, C46_only_for_goals, C46_only_registered, C46_shell, C46_side_effects, C46_value_of_an_option, C46_zero_threshold_refuted, C47_babbling_for_every_setting_refuted, C47_babbling_gives_way, C47_babbling_off, C47_babbling_picks_enabled_operations, C47_every_enabled_operation_is_picked, C48_belief_question, C48_event_question_partial, C48_event_question_refuted, C48_implication_question_partial, C48_implication_question_refuted, C48_operation_ten_refuted, C48_reachable_memories, C48_rule_question_partial, C48_sessions, C49_derivation, C49_history, C49_introduced, C50_belief_induction, C50_belief_intersection, C50_prediction_time, C50_revision_and_goal_rules, C52_clock_partial, C52_exact_refuted, C52_exact_without_goals, C52_exact_without_success, C52_inputs_in_order, C52_shell, C53_histories, C53_serialised, C54_priorities_stay_in_range, C55_amount_of_evidence, C55_anticipation_only_weakens_partial, C55_anticipation_only_weakens_refuted, C55_frequency_never_rises_partial, C55_frequency_never_rises_refuted, C55_only_the_responsible_rule_changes, C55_outdated_rules_removed, C56_composition_partial, C56_length_refuted, C56_no_longer_sequences, C57_decomposition_in_lives_partial, C57_decomposition_partial, C57_first_unsatisfied, C57_input_refuted, C57_long_refuted, C58_blank, C58_dispatch, C58_quit_and_reset, C58_sentences, C58_sessions_are_histories, C58_settings, C58_shows_only, C58_steps, C58_steps_refuted, C58_values_and_operations, C60_memory, C60_memory_one_premise, C60_missing_premise_irrelevant, C60_one_premise, C60_two_premises, C60_well_formed, C61_datagram_refuted, C61_no_crash_refuted, C61_settings_defined, C62_fresh_refuted, C62_reset_partial, C64_declarative_implication_partial, C64_input_is_remembered, C64_link_is_stored_partial, C64_link_refuted, C64_link_strength, C64_statement_is_remembered, C65_everything_rests_on_inputs, C65_history, C65_sessions, C66_connecting_events, C66_only_recent_events, C66_rules_of_what_was_done, C67_goals_of_a_cycle, C68_by_matching, C68_combination, C68_inference_phase_partial, C69_belief_phase, C69_comparison, C69_comparison_in_context, C69_compound_attribute_refuted, C69_only_measurements, C69_perception, C70_execution, C73_round_trip, C74_frequency_comparisons, C74_truth_equal.
<!-- /assumptions -->

* Flocq (definitions and proofs about binary64; it adds no axioms).
* That the definitions in the `*M.v` files say what the cited C lines do.  They were transcribed by
  hand from the text; nothing was compiled or run against the C program.  The mutation log
  (seeded/LOG.jsonl) records that edits of these definitions are noticed by the theorems, not that
  they agree with the C text.

## What is modelled

| C source | model | remarks |
|---|---|---|
| Stamp.c | StampM, StampPrintM | |
| Truth.c | TruthM | all but printing; `pow` (projection), `sqrt`-free |
| Globals.c (hash, rand) | HashM | two's complement wrap where ISO C says undefined |
| Stack.c, HashTable.c | StackM, HashTableM | pointer level |
| PriorityQueue.c | PQueueM | array level, any priority type; instance binary64 |
| Term.c | TermM | array level; hash cache for Term_Hash/Term_Equal only |
| Event.c, Implication.h, Inference.c, Table.c | EventM, InferenceM, TableM | |
| OccurrenceTimeIndex.c, InvertedAtomIndex.c, Usage.c | RingM, InvIndexM, UsageM | |
| Narsese.c | NamesM, AtomsM, ParserM (reading), PrintP's printing functions, OpsM | numbers in text by a parameter for the C library's conversion |
| Variable.c | VariableM | |
| Memory.c, Concept.h | MemoryM | all but printing |
| NAL.c, NAL.h | NalM, RulesM | the generated RuleTable.c is modelled from the texts of NAL.h and the generator; SEMANTIC_INFERENCE_NAL_LEVEL 6 |
| Decision.c | DecisionM, CycleM (Decision_Execute) | |
| Cycle.c | CycleM | all; loops over related concepts with explicit fuel |
| NAR.c | CycleM, QuestionM, OpsM, ShellM | |
| Shell.c | ShellM | all but what listings print |
| main.c | MainM | what is started, not what it does |
| NetworkNAR/Metric.c | MetricM | what the network does with a datagram is not modelled |
| NetworkNAR/UDPNAR.c | UdpM | threads, mutexes, socket state |

Not modelled: printing of events, concepts and statistics (Memory_printAdded*, Stats_Print, the
listings of the shell: they do not write the reasoner's state); NetworkNAR/UDP.c beyond
what a received or sent datagram is; the example environments, unit and system tests under
system_tests and unit_tests; the C compiler, memory layout, `long`/`int` overflow of counters unless
the comment of a definition says it is explicit; libm accuracy.

Parameters (universally quantified in the theorems, never assumed to have values): the configured sizes where a
definition takes them as arguments, `pow(0.8, ·)`, the priority penalty of complexity, the
environment's answer to an executed operation, conversions between text and double, recursion fuel
(running out of fuel is `Abort`, so a theorem about `Ok` results holds for every fuel).


## Findings: claims the code does not meet

Each is a theorem with suffix `_refuted`: a concrete (usually reachable) state or input on which the
claim fails in the model.

| Theorem | What happens |
|---|---|
| C03_overlap_with_derived_exact_refuted | A derived stamp keeps 10 ids; evidence beyond that is forgotten and later counts as independent. |
| C04_equal_symmetric_refuted | With repeated ids `Stamp_Equal` is not symmetric. |
| C10_any_input_truth_is_revisable_refuted, C10_confident_inputs_never_abort_refuted | Confidence 1 gives NaN on revision; the same timeless statement twice with confidence above 0.99 fails an assertion. |
| C12_replace_compound_is_exact_refuted | `Term_OverrideSubterm` leaves children of the replaced part behind. |
| C19_delete_absent_is_harmless_refuted | `HashTable_Delete` of an absent key deletes another key, aborts or dereferences NULL. |
| C20_push_on_full_is_reported_refuted | `Stack_Push` on a full stack writes outside the array. |
| C25_pop_at_keeps_order_refuted | `PriorityQueue_PopAt` breaks the min-max order. |
| C28_overlapping_evidence_is_not_merged_refuted | Implication tables count the same evidence again. |
| C31_unused_never_increases_refuted | With use counts and ages of about 10^15 the usefulness of an unused concept can rise in the last bit. |
| C32_reset_clears_import_refuted, C62_fresh_refuted | A pending `*stampimport` survives `*reset`. |
| C37_long_names_merge_refuted, C37_last_symbol_becomes_null_refuted | Names agreeing on 31 characters are one symbol; symbol 65536 becomes "no atom". |
| C38_unify_sound_refuted | Unification succeeds wrongly when a symbol occurs with different numbers of arguments, or the specific term mentions a bound variable. |
| C40_normalise_refuted | `Variable_Normalize` merges distinct variables. |
| C41_introduce_refuted | Statements inside statements are counted twice (a single occurrence is replaced); `$2` without `$1` lets different atoms become one variable. |
| C42_every_text_refuted, C42_malformed_refuted | Texts that crash the parser; malformed argument lists accepted silently. |
| C43_tokens_fit_refuted | 1075 or more `[` overflow the token array. |
| C44_round_trip_refuted | Printed terms that do not parse back. |
| C45_every_name_refuted, C45_rename_only_there_refuted | Operation names with holes after `*setopname`; `^` alone is never found. |
| C46_zero_threshold_refuted | `*decisionthreshold=0`: a missing reason is dereferenced. |
| C47_babbling_for_every_setting_refuted | `*babblingops` is unchecked: division by zero, reads outside the array. |
| C48_operation_ten_refuted, C48_event_question_refuted, C48_implication_question_refuted | Questions miss answers: operation 10, rounding of projected expectations, beliefs kept in implication concepts. |
| C49_filter_total_refuted | `NAL_JunctionNotRightNested` reads outside the term. |
| C52_exact_refuted | One input may take two clock ticks. |
| C55_anticipation_only_weakens_refuted, C55_frequency_never_rises_refuted | Anticipation may raise a frequency (rounding), and may add a rule. |
| C56_length_refuted | A sequence of 4 events is composed, nested sequences counting as one event. |
| C57_long_refuted, C57_input_refuted | A goal of 5 events writes outside an array, of 6 aborts. |
| C58_steps_refuted | "3000000000" is announced but no cycle runs. |
| C61_no_crash_refuted, C61_datagram_refuted | Shell lines (`*setopstdin 11`, `*stampimport=[1`, long `*setvalue` names, ...) and datagrams without terminator that crash the program. |
| C63_timestep_refuted | `UDPNAR` passes its thread a pointer to a parameter that has gone out of scope. |
| C64_link_refuted | `Memory_ProcessNewBeliefEvent` keeps the pointer to the target concept while conceptualising the source, which may evict the target: the link ends up in the source's concept. |
| C71_one_metric, C71_retry_refuted, C71_one_socket_refuted | `Metric_send` checks the length of its text after `sprintf` has written it into a buffer of 130 bytes; a socket that could not be opened is never asked for again; with descriptor 0 a second socket is opened. |
| C72_arguments_of_the_server_refuted, C72_missing_argument_refuted | `NAR UDPNAR pong 50000 …` runs Pong before the server; `NAR UDPNAR ip port step` reads `argv[5]` = NULL. |
