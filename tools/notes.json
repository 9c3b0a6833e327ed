{
 "C01": {
  "note": "Stamp_make on all well-formed stamps (10 slots, ids first, zero-terminated). System level: C65."
 },
 "C03": {
  "status": "partial",
  "note": "Conclusions overlap with their own premises and reported overlaps are never spurious, for all stamps. Exactness against third beliefs holds while both bases fit in 10 ids; beyond that truncation loses ids and the full statement is refuted by a witness."
 },
 "C04": {
  "status": "partial",
  "note": "Correct whenever the first stamp has no duplicate ids; refuted in general: with duplicates Stamp_Equal is not symmetric."
 },
 "C05": {
  "note": "All 24 truth functions and revision, IEEE binary64, no NaN/inf/out-of-range."
 },
 "C06": {
  "note": "Confidence claims and symmetry in binary64; frequency-between claim in exact arithmetic, as the property says."
 },
 "C08": {
  "note": "pow() is a parameter assumed to return doubles in [0,1] (and to be non-increasing for the monotonicity theorem)."
 },
 "C10": {
  "status": "partial",
  "note": "Refuted as stated (confidence > 0.99 makes RevisionAndChoice abort; 1.0 and 0/0 give NaN); proved for confidences in (0,0.99]."
 },
 "C25": {
  "status": "partial",
  "note": "PopAt removes exactly the entry; it does not preserve the heap order (refuted by a witness)."
 },
 "C11": {
  "note": "Closed terms (the parser's shape) for tree equality; positionwise statement for every array."
 },
 "C12": {
  "status": "proved",
  "note": "Leaf replacement as stated; the companion theorem shows by a witness that replacing a compound may leave stale children behind."
 },
 "C14": {
  "note": "memcmp over struct padding is modelled by a padding component, assumed equal (zero-initialised terms)."
 },
 "C17": {
  "note": "Generic in key, value, equality and hash; all histories. C17_longest_chain: HashTable_MaximumChainLength after any such history."
 },
 "C19": {
  "status": "partial",
  "note": "Exact outcome set proved; the claim as stated is refuted: deleting an absent key whose bucket is non-empty dereferences NULL."
 },
 "C20": {
  "status": "partial",
  "note": "LIFO up to capacity and abort on under/overflow proved; the overflow write happens before the assert (refuted companion)."
 },
 "C26": {
  "note": "Implication belief tables, all add/remove calls on any table."
 },
 "C28": {
  "status": "partial",
  "note": "Revision merges only equal statements with the stated result; the claim that overlapping evidence is not merged is refuted: Table_AddAndRevise revises regardless of overlap."
 },
 "C32": {
  "status": "proved",
  "note": "All histories of inputs, imports and resets; the companion shows that a reset does not cancel a pending import."
 },
 "C33": {
  "note": "pow() is a parameter assumed to return doubles in [0,1] with value 1 at 0 (pow_ok); names table without NUL characters."
 },
 "C50": {
  "note": "Terms in the parser's shape (closed); offsets exact up to 2^53."
 },
 "C51": {
  "note": "In exact arithmetic, as for C06."
 },
 "C30": {
  "note": "All disciplined histories (add under a term, remove under the same term), any table and pool size with pool >= 31*concepts."
 },
 "C31": {
  "status": "partial",
  "note": "Range for all longs; strict decay and growth in binary64 for realistic magnitudes (count+age < 2^49, count < 2^24); refuted in the last bit beyond."
 },
 "C37": {
  "status": "partial",
  "note": "Proved for all name sequences up to the first 31 characters and while fewer than 65536 symbols exist (exhaustion is reported); refuted beyond: names sharing 31 characters are merged, and the 65536th symbol's number is truncated to 0."
 },
 "C38": {
  "status": "partial",
  "note": "Proved for closed terms whose symbols have fixed arities and, for the application, when no variable inside a bound term is itself bound to something else. Missing because false: C38_unify_sound_refuted shows arity mismatch is accepted and substituted terms are captured."
 },
 "C39": {
  "status": "proved",
  "note": "Completeness of Unify2 for all instances with permitted replacements, and it finds exactly them."
 },
 "C40": {
  "status": "partial",
  "note": "Proved for terms without number clash (no_clash; always holds for unnumbered variables, C40_no_clash). False in general: C40_normalise_refuted."
 },
 "C41": {
  "status": "partial",
  "note": "Proved for gapless numbering and statements not nested in statements. False in general: C41_introduce_refuted (single occurrence replaced; clash with existing $2)."
 },
 "C34": {
  "status": "proved",
  "note": "All histories of conceptualisation, event addition (with the recursion of revised beliefs), forgetting, event selection and field updates, for all array sizes; also memory safety of these. Call-stack exhaustion counts as process death. Also for whole lives of the reasoner (calls, cycles with all inferences, questions, configuration, resets, a growing symbol table; PropsSys.v) and for all sessions of the shell with the 65536 symbols of the program (or any smaller table that does not get full), when operation feedback uses built-in symbols only."
 },
 "C35": {
  "status": "proved",
  "note": "For every reachable memory, stated about what lookups and the inverted index return. Also for whole lives and sessions (PropsSys.v)."
 },
 "C36": {
  "status": "proved",
  "note": "All reachable memories. \"Equal\" is the program's Event_Equal, which is not symmetric for stamps listing an id twice; the theorem says one direction distinguishes the two. Also for whole lives and sessions (PropsSys.v). C36_admission says which events enter a queue, which, and in the place of what."
 },
 "C54": {
  "status": "proved",
  "note": "All reachable memories; premises: new events come with priorities in [0,1] and 1/log2(1+n) of the C library is in [0,1] for n >= 1."
 },
 "C42": {
  "status": "partial",
  "note": "Proved: every well-formed text (token grammar of ParserS) whose tree fits the 64 slots is read as exactly the tree it denotes, or the symbol table is reported full, without access outside buffers; over-long texts refused; punctuation, tense, truth value and dt= parts of sentences. The claim for every string is false and refuted (NULL dereference on empty text and lone bracket, out-of-bounds write for deep nesting, reads before the text in sentences, dropped arguments). C library number scanning is a parameter."
 },
 "C43": {
  "status": "partial",
  "note": "Proved for canonicalisation and expansion for all strings; token array bound proved for texts with at most 2149 characters counting set openers twice, and refuted in general (1075 square brackets overflow the token array)."
 },
 "C44": {
  "status": "partial",
  "note": "Proved for all terms built from plain names, two-argument compounds and the unary forms the printer supports, for every reachable symbol table with fewer than 65536 symbols; refuted for names containing a comma code and one-argument connectors."
 },
 "C59": {
  "status": "proved",
  "note": "For all strings; the stated exception is text ending in two dashes."
 },
 "C45": {
  "status": "partial",
  "note": "Proved for NAR_AddOperation with operator names of at least two characters (the name ^ alone is refuted), names significant in 31 characters; *setopname: the renamed slot is exact and unique, but renaming to a known name erases later operations (refuted)."
 },
 "C48": {
  "status": "partial",
  "note": "Proved for statements without tense (and the query command); <a =/> b> questions without operation 10 (refuted), <a ==> b> questions over the links of b only (the concept of the implication itself is ignored, refuted) with priming off; event questions under the assumption that projection does not reorder events of equal time (refuted in general by rounding). In whole sessions the concepts looked through are exactly the stored ones."
 },
 "C46": {
  "status": "partial",
  "note": "Choice of the best option proved when the goal concept's rules refer to existing concepts (stale ones are removed on the way); the threshold is respected in every state; evaluation of an option is goal deduction. Threshold <= 0 without options dereferences NULL (refuted). At system level (all call histories): only registered operations are executed, only with a goal, at most one per cycle, which empties the goal queues. Also for every line of every shell session. C46_side_effects: exact characterisation of when an option is dropped because of negative outcomes."
 },
 "C47": {
  "status": "partial",
  "note": "Proved for a positive number of babbling operations; zero and negative settings are refuted (division by zero, unset operation, read outside the array)."
 },
 "C55": {
  "status": "partial",
  "note": "Proved: exactly the responsible table entry is revised with evidence of frequency 0; frequency never rises when the evidence is at least 2^-40 (rounding refuted otherwise) and strictly falls in exact arithmetic; a whole round only weakens rules if no concept with rules is evicted on the way (refuted otherwise). C55_outdated_rules_removed: exactly the outdated rules are removed when rules are considered."
 },
 "C49": {
  "status": "partial",
  "note": "Filter specification (inductive predicate implausible) proved exact; every term in memory after any history that is implausible was put there without declarative inference. Refuted: the right-nesting test reads past the 64 atoms when a conjunction/disjunction sign is in slot 32..63 (C49_filter_total_refuted). The check of components of introduced statements (HOLStatementComponentHasInvalidInhOrSim) is modelled but has no independent specification."
 },
 "C60": {
  "status": "proved",
  "note": "Rules and reductions are transcribed as text from NAL.h (SEMANTIC_INFERENCE_NAL_LEVEL 6) and shown to be read by the modelled parser to the terms used; conclusions characterised in both directions against pattern instantiation on trees, for well-formed premises (connectives with two components, other symbols none)."
 },
 "C52": {
  "status": "partial",
  "note": "All call histories from start, with configuration changing between calls: ticks <= clock advance <= ticks + executions; exact when no operation succeeds or no goal is given; input times strictly increase. Exactness in general is refuted: the feedback of a successful operation is an input whose cycle is nested in the running cycle and ticks the clock too. Shell lines other than *currenttime=, *concurrent, *reset never set the clock back."
 },
 "C58": {
  "status": "partial",
  "note": "Every line has exactly one reading (an independent grammar of openings), which is what is executed; each setting command sets the specified value and nothing else; listings and comments change nothing; digits run that many cycles; sentences are read by the parser model and given to the reasoner. Every session is a history of C52/C46. The floating point scanner and printing of doubles are parameters. Refuted: numbers from 2^31 are announced but run no cycle. Lines are as read by fgets (at most 1023 characters)."
 },
 "C61": {
  "status": "partial",
  "note": "Setting commands with numbers in range and closed brackets have a defined result; refuted in general: seven sessions of one or two lines with undefined behaviour (*setopstdin out of range, unclosed *stampimport, *concurrent then *stats, long *setvalue name, *setopname without number, numbers out of range). Refuted for the server: any datagram without NUL."
 },
 "C62": {
  "status": "partial",
  "note": "Memory, clock, ids, symbols, operations and values are as after program start and the parameters kept; refuted that nothing else survives: an imported stamp does (also the random state and statistics)."
 },
 "C53": {
  "status": "proved",
  "note": "All interleavings of the three threads at the granularity of single memory accesses of arbitrary terminating section code that implements the modelled cycle and shell line; the final state is the serial run in order of lock acquisition, inputs in order of arrival. Mutexes as in POSIX, Stopped read and written atomically."
 },
 "C63": {
  "status": "partial",
  "note": "Stopping proved (every schedule ends, only in the joined state, no section interrupted); starting refuted: the reasoner thread may read its time step from UDPNAR_Start's stack frame after the return."
 },
 "C56": {
  "status": "partial",
  "note": "One composing step proved: besides links, only (sp &/ post) with at most 3 events is formed, nothing onto 3 events, nothing with operations. Refuted as stated: only the left edge counts, so a sequence event counts as one and 4 events in total get composed and stored (C56_length_refuted); inputs are not limited."
 },
 "C57": {
  "status": "partial",
  "note": "Proved for sequence goals of up to 4 events, at any time of a life (C57_decomposition_in_lives_partial). Refuted for 5 events (out-of-bounds write) and 6 or more (assertion)."
 },
 "C64": {
  "status": "partial",
  "note": "Statements: proved for all lives (stamps of the stored beliefs are assumed to have 10 entries) and, without that assumption, for all sessions of the shell that do not set the id counter (C64_input_is_remembered). Links <.. =/> ..>: proved if the concept of the consequence is not forgotten at once to make room for that of the antecedent, which C64_link_refuted shows can happen (the link is then written into the wrong concept). Declarative implications <.. ==> ..> (kept both as link and as statement) if there is room for the three concepts involved (C64_declarative_implication_partial)."
 },
 "C65": {
  "status": "proved",
  "note": "All call histories from reachable states (C65_history), all lives including imports, resets, questions and forward id settings (C65_everything_rests_on_inputs), all shell sessions without *stampid= lines (C65_sessions). Setting the id counter back (*stampid=) makes later inputs reuse ids and is excluded."
 },
 "C66": {
  "status": "proved",
  "note": "C66_connecting_events: one connection, at any time of a life, both directions (what is learned and when nothing is). C66_rules_of_what_was_done: all memory changes of the search for operations are such connections. C66_only_recent_events: gating of events without operations."
 },
 "C67": {
  "status": "proved",
  "note": "C67_goals_of_a_cycle: for every cycle of every life, the goal phase satisfies the relation goal_phase of SubgoalS (selection, decomposition, execution, subgoals at every related concept exactly once, removal of outdated links). What telling a subgoal to the memory does is C36_admission."
 },
 "C68": {
  "status": "partial",
  "note": "C68_by_matching (exactly which conclusions by matching), C68_combination (an event with one concept) are complete; C68_inference_phase_partial covers the whole phase, rounds, limit, threshold, but not that every related concept is looked at."
 },
 "C69": {
  "status": "proved",
  "note": "C69_perception (every reachable state), C69_belief_phase (the whole phase), C69_comparison, C69_comparison_in_context, C69_only_measurements. What relating two events does is C56/C66, checking expectations C55. Finding: for compound attributes the comparison is malformed, C69_compound_attribute_refuted."
 },
 "C70": {
  "status": "proved",
  "note": "C70_execution gives the whole of an execution as the relations conditions_compared and carried_out of ExecS (exact: also when nothing is told); C70_implication and C70_feedback describe the terms built. The recursion of common parts is bounded by 7, the greatest depth of a term. What a cycle does with the input is C67-C69, what telling does C36. Procedures of operations are an arbitrary function of the executions so far; compound operations (MAX_COMPOUND_OP_LEN > 1) are not modelled."
 },
 "C71": {
  "status": "partial",
  "note": "Proved: the datagram, its unambiguity, order, and the socket if the first attempt gives a positive descriptor. The full claim is refuted: the length is checked after writing (a longer text overruns the buffer: C71_one_metric), a failed socket is never retried (C71_retry_refuted), and descriptor 0 (no standard input) leads to a second socket (C71_one_socket_refuted)."
 },
 "C72": {
  "status": "partial",
  "note": "C72_command_line is the whole of main.c (both directions) up to what the started activities do. Refuted: an argument of the server or a number's place can be the name of an example, which is then run too (C72_arguments_of_the_server_refuted); the server with fewer than four further arguments crashes (C72_missing_argument_refuted). atol/atoi as in glibc."
 },
 "C73": {
  "status": "proved",
  "note": "All filled stamps (ids, then free places). C73_printed also covers other arrays: what is printed are the ids before the first free place. printf %ld, strtol and strtok as in the C standard; the line is below the shell's limit (at most 225 characters)."
 },
 "C74": {
  "status": "proved",
  "note": "Exact (real) arithmetic against a table in terms of chances of Boolean combinations; the doubles only for equality and frequency comparisons (their range and confidence bounds are C05 and C07). Revision is C06, projection and eternalisation C08."
 }
}