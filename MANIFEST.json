{
 "claims": [
  {
   "property": "C01",
   "status": "proved",
   "theorems": [
    "C01_derived_evidence_from_premises",
    "C01_derived_evidence_pointwise"
   ],
   "note": "Stamp_make on all well-formed stamps (10 slots, ids first, zero-terminated). System level: C65."
  },
  {
   "property": "C02",
   "status": "proved",
   "theorems": [
    "C02_overlap_exact"
   ],
   "note": ""
  },
  {
   "property": "C03",
   "status": "partial",
   "theorems": [
    "C03_conclusion_overlaps_premises",
    "C03_overlap_with_derived_exact_if_fits",
    "C03_overlap_with_derived_sound",
    "C03_disjoint_premises_no_repetition",
    "C03_overlap_with_derived_exact_refuted"
   ],
   "note": "Conclusions overlap with their own premises and reported overlaps are never spurious, for all stamps. Exactness against third beliefs holds while both bases fit in 10 ids; beyond that truncation loses ids and the full statement is refuted by a witness."
  },
  {
   "property": "C04",
   "status": "partial",
   "theorems": [
    "C04_equal_iff_same_evidence",
    "C04_equal_symmetric",
    "C04_equal_symmetric_refuted"
   ],
   "note": "Correct whenever the first stamp has no duplicate ids; refuted in general: with duplicates Stamp_Equal is not symmetric."
  },
  {
   "property": "C05",
   "status": "proved",
   "theorems": [
    "C05_truth_functions_stay_in_range",
    "C05_revision_stays_in_range",
    "C05_max_confidence_value"
   ],
   "note": "All 24 truth functions and revision, IEEE binary64, no NaN/inf/out-of-range."
  },
  {
   "property": "C06",
   "status": "proved",
   "theorems": [
    "C06_revision_never_loses_confidence",
    "C06_revision_order_irrelevant",
    "C06_revision_exact"
   ],
   "note": "Confidence claims and symmetry in binary64; frequency-between claim in exact arithmetic, as the property says."
  },
  {
   "property": "C07",
   "status": "proved",
   "theorems": [
    "C07_confidence_never_grows"
   ],
   "note": ""
  },
  {
   "property": "C08",
   "status": "proved",
   "theorems": [
    "C08_projection_only_discounts",
    "C08_farther_is_weaker",
    "C08_eternalise_discounts"
   ],
   "note": "pow() is a parameter assumed to return doubles in [0,1] (and to be non-increasing for the monotonicity theorem)."
  },
  {
   "property": "C09",
   "status": "proved",
   "theorems": [
    "C09_expectation_is_probability",
    "C09_expectation_monotone_in_frequency",
    "C09_confidence_moves_expectation_away_from_half"
   ],
   "note": ""
  },
  {
   "property": "C10",
   "status": "partial",
   "theorems": [
    "C10_confident_inputs_never_abort_refuted",
    "C10_ordinary_inputs_never_abort_partial",
    "C10_any_input_truth_is_revisable_refuted"
   ],
   "note": "Refuted as stated (confidence > 0.99 makes RevisionAndChoice abort; 1.0 and 0/0 give NaN); proved for confidences in (0,0.99]."
  },
  {
   "property": "C11",
   "status": "proved",
   "theorems": [
    "C11_extract_is_the_subterm",
    "C11_extract_any_array"
   ],
   "note": "Closed terms (the parser's shape) for tree equality; positionwise statement for every array."
  },
  {
   "property": "C12",
   "status": "proved",
   "theorems": [
    "C12_replace_leaf_exact_or_failure_reported",
    "C12_replace_compound_is_exact_refuted"
   ],
   "note": "Leaf replacement as stated; the companion theorem shows by a witness that replacing a compound may leave stale children behind."
  },
  {
   "property": "C13",
   "status": "proved",
   "theorems": [
    "C13_complexity_is_tree_size",
    "C13_has_atom_iff_occurs"
   ],
   "note": ""
  },
  {
   "property": "C14",
   "status": "proved",
   "theorems": [
    "C14_equal_iff_same_atoms",
    "C14_same_tree_same_term"
   ],
   "note": "memcmp over struct padding is modelled by a padding component, assumed equal (zero-initialised terms)."
  },
  {
   "property": "C15",
   "status": "proved",
   "theorems": [
    "C15_hash_selects_existing_bucket"
   ],
   "note": ""
  },
  {
   "property": "C16",
   "status": "proved",
   "theorems": [
    "C16_random_values_in_range",
    "C16_random_sequence_is_a_function_of_the_state"
   ],
   "note": ""
  },
  {
   "property": "C17",
   "status": "proved",
   "theorems": [
    "C17_hash_table_is_a_finite_map",
    "C17_longest_chain"
   ],
   "note": "Generic in key, value, equality and hash; all histories. C17_longest_chain: HashTable_MaximumChainLength after any such history."
  },
  {
   "property": "C18",
   "status": "proved",
   "theorems": [
    "C18_no_storage_lost"
   ],
   "note": ""
  },
  {
   "property": "C19",
   "status": "partial",
   "theorems": [
    "C19_delete_absent_outcomes_partial",
    "C19_delete_absent_is_harmless_refuted"
   ],
   "note": "Exact outcome set proved; the claim as stated is refuted: deleting an absent key whose bucket is non-empty dereferences NULL."
  },
  {
   "property": "C20",
   "status": "partial",
   "theorems": [
    "C20_stack_is_bounded_lifo",
    "C20_push_on_full_is_reported_refuted"
   ],
   "note": "LIFO up to capacity and abort on under/overflow proved; the overflow write happens before the assert (refuted companion)."
  },
  {
   "property": "C21",
   "status": "proved",
   "theorems": [
    "C21_pop_max_is_maximum",
    "C21_pop_min_is_minimum",
    "C21_pop_max_is_maximum_double",
    "C21_pop_min_is_minimum_double"
   ],
   "note": ""
  },
  {
   "property": "C22",
   "status": "proved",
   "theorems": [
    "C22_push_adds_refuses_or_replaces_minimum"
   ],
   "note": ""
  },
  {
   "property": "C23",
   "status": "proved",
   "theorems": [
    "C23_slots_never_shared"
   ],
   "note": ""
  },
  {
   "property": "C24",
   "status": "proved",
   "theorems": [
    "C24_rebuild_restores_order"
   ],
   "note": ""
  },
  {
   "property": "C25",
   "status": "partial",
   "theorems": [
    "C25_pop_at_removes_exactly_partial",
    "C25_pop_at_keeps_order_refuted"
   ],
   "note": "PopAt removes exactly the entry; it does not preserve the heap order (refuted by a witness)."
  },
  {
   "property": "C26",
   "status": "proved",
   "theorems": [
    "C26_table_is_bounded",
    "C26_add_is_exact",
    "C26_remove_is_exact"
   ],
   "note": "Implication belief tables, all add/remove calls on any table."
  },
  {
   "property": "C27",
   "status": "proved",
   "theorems": [
    "C27_table_is_ranked"
   ],
   "note": ""
  },
  {
   "property": "C28",
   "status": "partial",
   "theorems": [
    "C28_revision_merges_only_equal_statements",
    "C28_overlapping_evidence_is_not_merged_refuted"
   ],
   "note": "Revision merges only equal statements with the stated result; the claim that overlapping evidence is not merged is refuted: Table_AddAndRevise revises regardless of overlap."
  },
  {
   "property": "C29",
   "status": "proved",
   "theorems": [
    "C29_kth_newest"
   ],
   "note": ""
  },
  {
   "property": "C30",
   "status": "proved",
   "theorems": [
    "C30_index_is_exact"
   ],
   "note": "All disciplined histories (add under a term, remove under the same term), any table and pool size with pool >= 31*concepts."
  },
  {
   "property": "C31",
   "status": "partial",
   "theorems": [
    "C31_range",
    "C31_unused_decays_partial",
    "C31_use_increases_partial",
    "C31_unused_never_increases_refuted"
   ],
   "note": "Range for all longs; strict decay and growth in binary64 for realistic magnitudes (count+age < 2^49, count < 2^24); refuted in the last bit beyond."
  },
  {
   "property": "C32",
   "status": "proved",
   "theorems": [
    "C32_next_input_id",
    "C32_inputs_are_independent",
    "C32_reset_clears_import_refuted"
   ],
   "note": "All histories of inputs, imports and resets; the companion shows that a reset does not cancel a pending import."
  },
  {
   "property": "C33",
   "status": "proved",
   "theorems": [
    "C33_belief_update"
   ],
   "note": "pow() is a parameter assumed to return doubles in [0,1] with value 1 at 0 (pow_ok); names table without NUL characters."
  },
  {
   "property": "C34",
   "status": "proved",
   "theorems": [
    "C34_memory_is_consistent",
    "C34_memory_is_safe",
    "C34_memory_of_a_life_is_consistent",
    "C34_memory_of_a_session_is_consistent",
    "C34_all_sessions"
   ],
   "note": "All histories of conceptualisation, event addition (with the recursion of revised beliefs), forgetting, event selection and field updates, for all array sizes; also memory safety of these. Call-stack exhaustion counts as process death. Also for whole lives of the reasoner (calls, cycles with all inferences, questions, configuration, resets, a growing symbol table; PropsSys.v) and for all sessions of the shell with the 65536 symbols of the program (or any smaller table that does not get full), when operation feedback uses built-in symbols only."
  },
  {
   "property": "C35",
   "status": "proved",
   "theorems": [
    "C35_one_least_useful_concept_is_evicted",
    "C35_eviction_in_a_life",
    "C35_eviction_in_a_session"
   ],
   "note": "For every reachable memory, stated about what lookups and the inverted index return. Also for whole lives and sessions (PropsSys.v)."
  },
  {
   "property": "C36",
   "status": "proved",
   "theorems": [
    "C36_admission",
    "C36_attention_queues",
    "C36_selection_takes_the_best",
    "C36_weak_events_are_ignored",
    "C36_queues_of_a_life",
    "C36_queues_of_a_session"
   ],
   "note": "All reachable memories. \"Equal\" is the program's Event_Equal, which is not symmetric for stamps listing an id twice; the theorem says one direction distinguishes the two. Also for whole lives and sessions (PropsSys.v). C36_admission says which events enter a queue, which, and in the place of what."
  },
  {
   "property": "C37",
   "status": "partial",
   "theorems": [
    "C37_interning_partial",
    "C37_numbers_are_kept",
    "C37_long_names_merge_refuted",
    "C37_last_symbol_becomes_null_refuted"
   ],
   "note": "Proved for all name sequences up to the first 31 characters and while fewer than 65536 symbols exist (exhaustion is reported); refuted beyond: names sharing 31 characters are merged, and the 65536th symbol's number is truncated to 0."
  },
  {
   "property": "C38",
   "status": "partial",
   "theorems": [
    "C38_unify_sound_partial",
    "C38_unify_analogy_partial",
    "C38_substitute_exact_or_failure_reported",
    "C38_unify_sound_refuted"
   ],
   "note": "Proved for closed terms whose symbols have fixed arities and, for the application, when no variable inside a bound term is itself bound to something else. Missing because false: C38_unify_sound_refuted shows arity mismatch is accepted and substituted terms are captured."
  },
  {
   "property": "C39",
   "status": "proved",
   "theorems": [
    "C39_unify_complete"
   ],
   "note": "Completeness of Unify2 for all instances with permitted replacements, and it finds exactly them."
  },
  {
   "property": "C40",
   "status": "partial",
   "theorems": [
    "C40_normalise_partial",
    "C40_no_clash",
    "C40_normalise_refuted"
   ],
   "note": "Proved for terms without number clash (no_clash; always holds for unnumbered variables, C40_no_clash). False in general: C40_normalise_refuted."
  },
  {
   "property": "C41",
   "status": "partial",
   "theorems": [
    "C41_introduce_implication_partial",
    "C41_introduce_conjunction_partial",
    "C41_introduce_refuted"
   ],
   "note": "Proved for gapless numbering and statements not nested in statements. False in general: C41_introduce_refuted (single occurrence replaced; clash with existing $2)."
  },
  {
   "property": "C42",
   "status": "partial",
   "theorems": [
    "C42_well_formed_partial",
    "C42_too_long_refused",
    "C42_sentence",
    "C42_sentence_truth",
    "C42_sentence_offset",
    "C42_every_text_refuted",
    "C42_malformed_refuted"
   ],
   "note": "Proved: every well-formed text (token grammar of ParserS) whose tree fits the 64 slots is read as exactly the tree it denotes, or the symbol table is reported full, without access outside buffers; over-long texts refused; punctuation, tense, truth value and dt= parts of sentences. The claim for every string is false and refuted (NULL dereference on empty text and lone bracket, out-of-bounds write for deep nesting, reads before the text in sentences, dropped arguments). C library number scanning is a parameter."
  },
  {
   "property": "C43",
   "status": "partial",
   "theorems": [
    "C43_text_stages_fit",
    "C43_tokens_fit_partial",
    "C43_tokens_fit_refuted"
   ],
   "note": "Proved for canonicalisation and expansion for all strings; token array bound proved for texts with at most 2149 characters counting set openers twice, and refuted in general (1075 square brackets overflow the token array)."
  },
  {
   "property": "C44",
   "status": "partial",
   "theorems": [
    "C44_round_trip_partial",
    "C44_round_trip_refuted"
   ],
   "note": "Proved for all terms built from plain names, two-argument compounds and the unary forms the printer supports, for every reachable symbol table with fewer than 65536 symbols; refuted for names containing a comma code and one-argument connectors."
  },
  {
   "property": "C45",
   "status": "partial",
   "theorems": [
    "C45_registration_partial",
    "C45_refused",
    "C45_every_name_refuted",
    "C45_rename_slot",
    "C45_rename_only_there_refuted",
    "C45_same_lookup"
   ],
   "note": "Proved for NAR_AddOperation with operator names of at least two characters (the name ^ alone is refuted), names significant in 31 characters; *setopname: the renamed slot is exact and unique, but renaming to a known name erases later operations (refuted)."
  },
  {
   "property": "C46",
   "status": "partial",
   "theorems": [
    "C46_only_registered",
    "C46_only_for_goals",
    "C46_one_execution_per_cycle",
    "C46_only_above_threshold",
    "C46_best_option_is_chosen_partial",
    "C46_value_of_an_option",
    "C46_best_of_several_goals",
    "C46_zero_threshold_refuted",
    "C46_side_effects",
    "C46_shell"
   ],
   "note": "Choice of the best option proved when the goal concept's rules refer to existing concepts (stale ones are removed on the way); the threshold is respected in every state; evaluation of an option is goal deduction. Threshold <= 0 without options dereferences NULL (refuted). At system level (all call histories): only registered operations are executed, only with a goal, at most one per cycle, which empties the goal queues. Also for every line of every shell session. C46_side_effects: exact characterisation of when an option is dropped because of negative outcomes."
  },
  {
   "property": "C47",
   "status": "partial",
   "theorems": [
    "C47_babbling_picks_enabled_operations",
    "C47_babbling_arguments",
    "C47_every_enabled_operation_is_picked",
    "C47_babbling_for_every_setting_refuted",
    "C47_babbling_gives_way",
    "C47_babbling_off"
   ],
   "note": "Proved for a positive number of babbling operations; zero and negative settings are refuted (division by zero, unset operation, read outside the array)."
  },
  {
   "property": "C48",
   "status": "partial",
   "theorems": [
    "C48_belief_question",
    "C48_rule_question_partial",
    "C48_implication_question_partial",
    "C48_event_question_partial",
    "C48_operation_ten_refuted",
    "C48_event_question_refuted",
    "C48_implication_question_refuted",
    "C48_reachable_memories",
    "C48_sessions"
   ],
   "note": "Proved for statements without tense (and the query command); <a =/> b> questions without operation 10 (refuted), <a ==> b> questions over the links of b only (the concept of the implication itself is ignored, refuted) with priming off; event questions under the assumption that projection does not reorder events of equal time (refuted in general by rounding). In whole sessions the concepts looked through are exactly the stored ones."
  },
  {
   "property": "C49",
   "status": "partial",
   "theorems": [
    "C49_derivation",
    "C49_history",
    "C49_filter_exact",
    "C49_introduced",
    "C49_filter_total_partial",
    "C49_filter_total_refuted"
   ],
   "note": "Filter specification (inductive predicate implausible) proved exact; every term in memory after any history that is implausible was put there without declarative inference. Refuted: the right-nesting test reads past the 64 atoms when a conjunction/disjunction sign is in slot 32..63 (C49_filter_total_refuted). The check of components of introduced statements (HOLStatementComponentHasInvalidInhOrSim) is modelled but has no independent specification."
  },
  {
   "property": "C50",
   "status": "proved",
   "theorems": [
    "C50_belief_intersection",
    "C50_belief_induction",
    "C50_prediction_time",
    "C50_revision_and_goal_rules"
   ],
   "note": "Terms in the parser's shape (closed); offsets exact up to 2^53."
  },
  {
   "property": "C51",
   "status": "proved",
   "theorems": [
    "C51_average_between"
   ],
   "note": "In exact arithmetic, as for C06."
  },
  {
   "property": "C52",
   "status": "partial",
   "theorems": [
    "C52_clock_partial",
    "C52_exact_without_success",
    "C52_exact_without_goals",
    "C52_inputs_in_order",
    "C52_exact_refuted",
    "C52_shell"
   ],
   "note": "All call histories from start, with configuration changing between calls: ticks <= clock advance <= ticks + executions; exact when no operation succeeds or no goal is given; input times strictly increase. Exactness in general is refuted: the feedback of a successful operation is an input whose cycle is nested in the running cycle and ticks the clock too. Shell lines other than *currenttime=, *concurrent, *reset never set the clock back."
  },
  {
   "property": "C53",
   "status": "proved",
   "theorems": [
    "C53_mutual_exclusion",
    "C53_serialised",
    "C53_inputs",
    "C53_histories"
   ],
   "note": "All interleavings of the three threads at the granularity of single memory accesses of arbitrary terminating section code that implements the modelled cycle and shell line; the final state is the serial run in order of lock acquisition, inputs in order of arrival. Mutexes as in POSIX, Stopped read and written atomically."
  },
  {
   "property": "C54",
   "status": "proved",
   "theorems": [
    "C54_priorities_stay_in_range"
   ],
   "note": "All reachable memories; premises: new events come with priorities in [0,1] and 1/log2(1+n) of the C library is in [0,1] for n >= 1."
  },
  {
   "property": "C55",
   "status": "partial",
   "theorems": [
    "C55_only_the_responsible_rule_changes",
    "C55_frequency_never_rises_partial",
    "C55_amount_of_evidence",
    "C55_frequency_falls_exact",
    "C55_anticipation_only_weakens_partial",
    "C55_outdated_rules_removed",
    "C55_frequency_never_rises_refuted",
    "C55_anticipation_only_weakens_refuted"
   ],
   "note": "Proved: exactly the responsible table entry is revised with evidence of frequency 0; frequency never rises when the evidence is at least 2^-40 (rounding refuted otherwise) and strictly falls in exact arithmetic; a whole round only weakens rules if no concept with rules is evicted on the way (refuted otherwise). C55_outdated_rules_removed: exactly the outdated rules are removed when rules are considered."
  },
  {
   "property": "C56",
   "status": "partial",
   "theorems": [
    "C56_composition_partial",
    "C56_no_longer_sequences",
    "C56_length_refuted"
   ],
   "note": "One composing step proved: besides links, only (sp &/ post) with at most 3 events is formed, nothing onto 3 events, nothing with operations. Refuted as stated: only the left edge counts, so a sequence event counts as one and 4 events in total get composed and stored (C56_length_refuted); inputs are not limited."
  },
  {
   "property": "C57",
   "status": "partial",
   "theorems": [
    "C57_decomposition_partial",
    "C57_first_unsatisfied",
    "C57_long_refuted",
    "C57_input_refuted",
    "C57_decomposition_in_lives_partial"
   ],
   "note": "Proved for sequence goals of up to 4 events, at any time of a life (C57_decomposition_in_lives_partial). Refuted for 5 events (out-of-bounds write) and 6 or more (assertion)."
  },
  {
   "property": "C58",
   "status": "partial",
   "theorems": [
    "C58_one_reading",
    "C58_dispatch",
    "C58_trim",
    "C58_quit_and_reset",
    "C58_shows_only",
    "C58_settings",
    "C58_values_and_operations",
    "C58_steps",
    "C58_blank",
    "C58_steps_refuted",
    "C58_sentences",
    "C58_sessions_are_histories"
   ],
   "note": "Every line has exactly one reading (an independent grammar of openings), which is what is executed; each setting command sets the specified value and nothing else; listings and comments change nothing; digits run that many cycles; sentences are read by the parser model and given to the reasoner. Every session is a history of C52/C46. The floating point scanner and printing of doubles are parameters. Refuted: numbers from 2^31 are announced but run no cycle. Lines are as read by fgets (at most 1023 characters)."
  },
  {
   "property": "C59",
   "status": "proved",
   "theorems": [
    "C59_copula_code",
    "C59_plain_text_kept",
    "C59_compositional"
   ],
   "note": "For all strings; the stated exception is text ending in two dashes."
  },
  {
   "property": "C60",
   "status": "proved",
   "theorems": [
    "C60_rules_read",
    "C60_two_premises",
    "C60_one_premise",
    "C60_missing_premise_irrelevant",
    "C60_reduction",
    "C60_well_formed",
    "C60_memory",
    "C60_memory_one_premise"
   ],
   "note": "Rules and reductions are transcribed as text from NAL.h (SEMANTIC_INFERENCE_NAL_LEVEL 6) and shown to be read by the modelled parser to the terms used; conclusions characterised in both directions against pattern instantiation on trees, for well-formed premises (connectives with two components, other symbols none)."
  },
  {
   "property": "C61",
   "status": "partial",
   "theorems": [
    "C61_settings_defined",
    "C61_no_crash_refuted",
    "C61_datagram_refuted"
   ],
   "note": "Setting commands with numbers in range and closed brackets have a defined result; refuted in general: seven sessions of one or two lines with undefined behaviour (*setopstdin out of range, unclosed *stampimport, *concurrent then *stats, long *setvalue name, *setopname without number, numbers out of range). Refuted for the server: any datagram without NUL."
  },
  {
   "property": "C62",
   "status": "partial",
   "theorems": [
    "C62_reset_partial",
    "C62_fresh_refuted"
   ],
   "note": "Memory, clock, ids, symbols, operations and values are as after program start and the parameters kept; refuted that nothing else survives: an imported stamp does (also the random state and statistics)."
  },
  {
   "property": "C63",
   "status": "partial",
   "theorems": [
    "C63_stop",
    "C63_timestep_refuted"
   ],
   "note": "Stopping proved (every schedule ends, only in the joined state, no section interrupted); starting refuted: the reasoner thread may read its time step from UDPNAR_Start's stack frame after the return."
  },
  {
   "property": "C64",
   "status": "partial",
   "theorems": [
    "C64_statement_is_remembered",
    "C64_link_is_stored_partial",
    "C64_link_strength",
    "C64_link_refuted",
    "C64_declarative_implication_partial",
    "C64_input_is_remembered"
   ],
   "note": "Statements: proved for all lives (stamps of the stored beliefs are assumed to have 10 entries) and, without that assumption, for all sessions of the shell that do not set the id counter (C64_input_is_remembered). Links <.. =/> ..>: proved if the concept of the consequence is not forgotten at once to make room for that of the antecedent, which C64_link_refuted shows can happen (the link is then written into the wrong concept). Declarative implications <.. ==> ..> (kept both as link and as statement) if there is room for the three concepts involved (C64_declarative_implication_partial)."
  },
  {
   "property": "C65",
   "status": "proved",
   "theorems": [
    "C65_history",
    "C65_everything_rests_on_inputs",
    "C65_sessions"
   ],
   "note": "All call histories from reachable states (C65_history), all lives including imports, resets, questions and forward id settings (C65_everything_rests_on_inputs), all shell sessions without *stampid= lines (C65_sessions). Setting the id counter back (*stampid=) makes later inputs reuse ids and is excluded."
  },
  {
   "property": "C66",
   "status": "proved",
   "theorems": [
    "C66_connecting_events",
    "C66_rules_of_what_was_done",
    "C66_only_recent_events"
   ],
   "note": "C66_connecting_events: one connection, at any time of a life, both directions (what is learned and when nothing is). C66_rules_of_what_was_done: all memory changes of the search for operations are such connections. C66_only_recent_events: gating of events without operations."
  },
  {
   "property": "C67",
   "status": "proved",
   "theorems": [
    "C67_goals_of_a_cycle"
   ],
   "note": "C67_goals_of_a_cycle: for every cycle of every life, the goal phase satisfies the relation goal_phase of SubgoalS (selection, decomposition, execution, subgoals at every related concept exactly once, removal of outdated links). What telling a subgoal to the memory does is C36_admission."
  },
  {
   "property": "C68",
   "status": "partial",
   "theorems": [
    "C68_inference_phase_partial",
    "C68_combination",
    "C68_by_matching"
   ],
   "note": "C68_by_matching (exactly which conclusions by matching), C68_combination (an event with one concept) are complete; C68_inference_phase_partial covers the whole phase, rounds, limit, threshold, but not that every related concept is looked at."
  },
  {
   "property": "C69",
   "status": "proved",
   "theorems": [
    "C69_perception",
    "C69_belief_phase",
    "C69_comparison",
    "C69_comparison_in_context",
    "C69_only_measurements",
    "C69_compound_attribute_refuted"
   ],
   "note": "C69_perception (every reachable state), C69_belief_phase (the whole phase), C69_comparison, C69_comparison_in_context, C69_only_measurements. What relating two events does is C56/C66, checking expectations C55. Finding: for compound attributes the comparison is malformed, C69_compound_attribute_refuted."
  },
  {
   "property": "C70",
   "status": "proved",
   "theorems": [
    "C70_execution",
    "C70_implication",
    "C70_feedback"
   ],
   "note": "C70_execution gives the whole of an execution as the relations conditions_compared and carried_out of ExecS (exact: also when nothing is told); C70_implication and C70_feedback describe the terms built. The recursion of common parts is bounded by 7, the greatest depth of a term. What a cycle does with the input is C67-C69, what telling does C36. Procedures of operations are an arbitrary function of the executions so far; compound operations (MAX_COMPOUND_OP_LEN > 1) are not modelled."
  },
  {
   "property": "C71",
   "status": "partial",
   "theorems": [
    "C71_one_metric",
    "C71_unambiguous",
    "C71_history",
    "C71_retry_refuted",
    "C71_one_socket_refuted"
   ],
   "note": "Proved: the datagram, its unambiguity, order, and the socket if the first attempt gives a positive descriptor. The full claim is refuted: the length is checked after writing (a longer text overruns the buffer: C71_one_metric), a failed socket is never retried (C71_retry_refuted), and descriptor 0 (no standard input) leads to a second socket (C71_one_socket_refuted)."
  },
  {
   "property": "C72",
   "status": "partial",
   "theorems": [
    "C72_command_line",
    "C72_arguments_of_the_server_refuted",
    "C72_missing_argument_refuted"
   ],
   "note": "C72_command_line is the whole of main.c (both directions) up to what the started activities do. Refuted: an argument of the server or a number's place can be the name of an example, which is then run too (C72_arguments_of_the_server_refuted); the server with fewer than four further arguments crashes (C72_missing_argument_refuted). atol/atoi as in glibc."
  },
  {
   "property": "C73",
   "status": "proved",
   "theorems": [
    "C73_printed",
    "C73_round_trip",
    "C73_unambiguous"
   ],
   "note": "All filled stamps (ids, then free places). C73_printed also covers other arrays: what is printed are the ids before the first free place. printf %ld, strtol and strtok as in the C standard; the line is below the shell's limit (at most 225 characters)."
  },
  {
   "property": "C74",
   "status": "proved",
   "theorems": [
    "C74_truth_functions_exact",
    "C74_truth_equal",
    "C74_frequency_comparisons"
   ],
   "note": "Exact (real) arithmetic against a table in terms of chances of Boolean combinations; the doubles only for equality and frequency comparisons (their range and confidence bounds are C05 and C07). Revision is C06, projection and eternalisation C08."
  }
 ]
}