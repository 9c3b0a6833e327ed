{"id": "C01", "title": "Derived evidence comes only from the premises", "statement": "The evidential base of a derived event lists at most 10 ids, each of which is an id of one of its two premises; ids are taken alternately from the two premises, oldest position first, and none is dropped while the two bases together fit in 10.", "quantifier": "all pairs of evidential bases of any length up to the capacity", "why_tests_cant": "The zip has a different truncation point for every pair of lengths; tests sample a few.", "anchors": ["src/Stamp.c:Stamp_make", "src/Inference.c:DERIVATION_STAMP"]}
{"id": "C02", "title": "Evidence overlap check is exact", "statement": "The overlap test used before every revision answers true exactly when the two evidential bases share an id, regardless of argument order and of ids' positions.", "quantifier": "all pairs of evidential bases", "why_tests_cant": "Needs both directions for every pair of positions.", "anchors": ["src/Stamp.c:Stamp_checkOverlap"]}
{"id": "C03", "title": "A conclusion is recognised as overlapping with its own premises", "statement": "If a conclusion is derived from two premises, testing it against either premise (or anything derived from its whole base) reports overlap, so the same evidence is never counted twice by revision; with full bases the truncation must not make the check miss evidence.", "quantifier": "all premise pairs and all later events", "why_tests_cant": "Depends on how long the chain of derivations is; truncation only bites at particular lengths.", "anchors": ["src/Stamp.c:Stamp_make", "src/Stamp.c:Stamp_checkOverlap"]}
{"id": "C04", "title": "Stamp equality means same evidence", "statement": "Two stamps compare equal exactly when they list the same set of evidence, and the comparison is symmetric.", "quantifier": "all pairs of stamps", "why_tests_cant": "Only stamps with repeated ids expose the difference.", "anchors": ["src/Stamp.c:Stamp_Equal"]}
{"id": "C05", "title": "Truth values stay in range", "statement": "For premises with frequency in [0,1] and confidence in [0,0.99], every truth function of the inference engine returns a frequency in [0,1] and a confidence in [0,1) in IEEE double arithmetic: no NaN, no infinity, no value outside the range.", "quantifier": "all double-precision premise truth values in the valid range, all truth functions", "why_tests_cant": "Rounding can push a result past 1; the input space is 2^256.", "anchors": ["src/Truth.c"]}
{"id": "C06", "title": "Revision never loses confidence and stays between the opinions", "statement": "Revising two valid truth values gives a confidence at least the larger of both (and at most 0.99), and, in exact arithmetic, a frequency between the two frequencies; the result does not depend on the argument order.", "quantifier": "all pairs of valid truth values", "why_tests_cant": "A monotonicity claim over a continuum.", "anchors": ["src/Truth.c:Truth_Revision", "src/Truth.c:Truth_w2c", "src/Truth.c:Truth_c2w"]}
{"id": "C07", "title": "Chaining inference never gains confidence", "statement": "Deduction, analogy, intersection, union, exemplification, abduction, induction, comparison and the structural rules never return a confidence above that of either premise.", "quantifier": "all pairs of valid truth values", "why_tests_cant": "Inequality over a continuum, in floating point.", "anchors": ["src/Truth.c"]}
{"id": "C08", "title": "Projection and eternalisation only discount", "statement": "Projecting a truth value to another time keeps its frequency, never raises its confidence, leaves eternal and same-time values untouched; eternalising keeps the frequency and lowers the confidence to at most one half.", "quantifier": "all truth values and times", "why_tests_cant": "Depends on every time distance.", "anchors": ["src/Truth.c:Truth_Projection", "src/Truth.c:Truth_Eternalize"]}
{"id": "C09", "title": "Expectation is a probability and orders truth values", "statement": "The expectation of a valid truth value lies in [0,1], equals 0.5 at confidence 0, is non-decreasing in frequency, and moves away from 0.5 towards the frequency as confidence grows.", "quantifier": "all valid truth values", "why_tests_cant": "Continuum.", "anchors": ["src/Truth.c:Truth_Expectation"]}
{"id": "C10", "title": "Accepted input truth values never crash the reasoner", "statement": "Any truth value a user attaches to an input sentence can be revised with any other without aborting or producing a non-number.", "quantifier": "all truth values accepted by the input API", "why_tests_cant": "Only values above 0.99 (or both confidences 0) expose it.", "anchors": ["src/NAR.c:NAR_AddInput", "src/Inference.c:Inference_RevisionAndChoice", "src/Truth.c:Truth_Revision"]}
{"id": "C11", "title": "Subterm extraction returns exactly the subterm", "statement": "Extracting the subterm at a position of any term yields the term whose tree is the subtree at that position, and nothing else.", "quantifier": "all terms (all 64-slot atom arrays) and all positions", "why_tests_cant": "Tree positions are encoded in array indices; every shape and depth matters.", "anchors": ["src/Term.c:Term_ExtractSubterm", "src/Term.c:Term_RelativeOverride"]}
{"id": "C12", "title": "Subterm replacement is exact or reported as failed", "statement": "Replacing a leaf of a term by another term either reports failure because the result does not fit in the fixed term size, or yields the term in which exactly that subtree has been replaced and everything else is unchanged.", "quantifier": "all terms, all positions, all replacement terms", "why_tests_cant": "As above, plus truncation at the size limit.", "anchors": ["src/Term.c:Term_OverrideSubterm", "src/Term.c:Term_RelativeOverride"]}
{"id": "C13", "title": "Term complexity and atom occurrence are those of the tree", "statement": "The complexity of a term is the number of atoms and connectors in its tree, and it is at least 1 for a non-empty term; an atom is reported as occurring iff the tree contains it.", "quantifier": "all terms", "why_tests_cant": "Depends on every slot.", "anchors": ["src/Term.c:Term_Complexity", "src/Term.c:Term_HasAtom"]}
{"id": "C14", "title": "Terms compare equal iff they are the same term", "statement": "Term comparison (by hash, then by content) is true exactly if all atoms agree, whatever mixture of cached and uncached hashes the two terms carry, as long as a cached hash was computed from the current content.", "quantifier": "all pairs of terms and all caching states", "why_tests_cant": "Hash caching makes the answer history dependent.", "anchors": ["src/Term.c:Term_Equal", "src/Term.c:Term_Hash"]}
{"id": "C15", "title": "Every hash selects an existing bucket", "statement": "The hash of any content is non-negative, so that hash modulo the number of buckets is a valid bucket index.", "quantifier": "all contents of all sizes", "why_tests_cant": "2^1024 terms; sign bit of a mixed 64-bit value.", "anchors": ["src/Globals.c:Globals_Hash", "src/HashTable.c"]}
{"id": "C16", "title": "Random choices are bounded and reproducible", "statement": "The pseudo random generator returns values in 0..32767 for every state, and the sequence is a function of the seed only.", "quantifier": "all seeds and all sequence lengths", "why_tests_cant": "All 2^64 states.", "anchors": ["src/Globals.c:myrand", "src/Globals.c:mysrand"]}
{"id": "C17", "title": "The hash table is a finite map", "statement": "After any sequence of insertions, updates, look-ups and deletions of stored keys, look-up returns the last value stored under an equal key and nothing else, whatever the hash function.", "quantifier": "all operation histories, all hash functions, all capacities", "why_tests_cant": "Chains and slot recycling make state history dependent.", "anchors": ["src/HashTable.c:HashTable_Get", "src/HashTable.c:HashTable_Set", "src/HashTable.c:HashTable_Delete"]}
{"id": "C18", "title": "The hash table loses no storage", "statement": "At every moment each of the table's item slots is either free or used by exactly one stored key, so capacity many keys can always be stored.", "quantifier": "all operation histories", "why_tests_cant": "Leaks show only after long histories.", "anchors": ["src/HashTable.c", "src/Stack.c"]}
{"id": "C19", "title": "Deleting an absent key is harmless", "statement": "Deleting a key that is not stored leaves all stored keys intact (or is rejected).", "quantifier": "all table states and keys", "why_tests_cant": "Needs a particular bucket occupancy.", "anchors": ["src/HashTable.c:HashTable_Delete"]}
{"id": "C20", "title": "The stack is a bounded LIFO", "statement": "Pushes and pops behave as a last-in-first-out stack; pushing beyond the capacity or popping from an empty stack is never silent.", "quantifier": "all operation histories, all capacities", "why_tests_cant": "History dependent.", "anchors": ["src/Stack.c"]}
{"id": "C21", "title": "The priority queue yields extremes", "statement": "After any sequence of pushes, pops and rebuilds, taking the maximum (minimum) returns an element of largest (smallest) priority among those stored.", "quantifier": "all operation histories, all capacities, all priority orders", "why_tests_cant": "Min-max heap order is an invariant over all shapes and sizes.", "anchors": ["src/PriorityQueue.c:PriorityQueue_PopMax", "src/PriorityQueue.c:PriorityQueue_PopMin", "src/PriorityQueue.c:PriorityQueue_Push"]}
{"id": "C22", "title": "The priority queue never loses or invents elements", "statement": "A push to a non-full queue adds exactly that element; a push to a full queue either is refused because its priority is below everything stored, or replaces exactly one element of minimal priority and reports it; a pop removes exactly the returned element; the size never exceeds the capacity.", "quantifier": "all operation histories", "why_tests_cant": "Multiset equality for all sizes.", "anchors": ["src/PriorityQueue.c"]}
{"id": "C23", "title": "Storage slots of a priority queue are never shared", "statement": "Each stored item occupies its own storage slot; the slot handed out for a new element is not used by any stored element and stays that element's slot until it leaves the queue.", "quantifier": "all operation histories", "why_tests_cant": "Aliasing appears only after particular histories.", "anchors": ["src/PriorityQueue.c:PriorityQueue_Push", "src/PriorityQueue.c:PriorityQueue_PopMax", "src/PriorityQueue.c:PriorityQueue_PopMin"]}
{"id": "C24", "title": "Rebuilding restores order after arbitrary priority changes", "statement": "After the priorities of stored elements are changed arbitrarily (forgetting), rebuilding gives a queue with the same elements from which maxima and minima are again correctly returned.", "quantifier": "all queues and all priority changes", "why_tests_cant": "All permutations.", "anchors": ["src/PriorityQueue.c:PriorityQueue_Rebuild", "src/Cycle.c:Cycle_RelativeForgetting"]}
{"id": "C25", "title": "Removing an inner element keeps the queue ordered", "statement": "Removing an arbitrary element of the queue leaves a queue from which extremes are still returned correctly.", "quantifier": "all queues and positions", "why_tests_cant": "Depends on the level of the position and on the last leaf.", "anchors": ["src/PriorityQueue.c:PriorityQueue_PopAt"]}
{"id": "C26", "title": "Belief tables are bounded and hold valid entries", "statement": "An implication table never holds more than 20 entries, and adding one implication adds exactly that one and drops at most one, namely the last.", "quantifier": "all tables and implications", "why_tests_cant": "All fill states and positions.", "anchors": ["src/Table.c:Table_Add", "src/Table.c:Table_Remove"]}
{"id": "C27", "title": "Belief tables are ranked", "statement": "Entries of an implication table are ranked by truth expectation when all terms differ, so the first entry is the strongest hypothesis.", "quantifier": "all histories of table insertions", "why_tests_cant": "Sortedness for all insertion orders.", "anchors": ["src/Table.c:Table_Add", "src/Table.c:Table_AddAndRevise"]}
{"id": "C28", "title": "Revising a table entry merges evidence of equal statements only", "statement": "Adding an implication whose statement is already in the table revises that entry's truth (merging evidence) only if the evidential bases do not overlap; all entries of other statements are kept unchanged in order.", "quantifier": "all tables and implications", "why_tests_cant": "All positions, overlap patterns and truth values.", "anchors": ["src/Table.c:Table_AddAndRevise", "src/Inference.c:Inference_ImplicationRevision"]}
{"id": "C29", "title": "The occurrence index remembers exactly the newest concepts", "statement": "After any history of insertions the k-th newest query returns the k-th most recently inserted concept, for every k below the number remembered (at most 512).", "quantifier": "all insertion histories and all k", "why_tests_cant": "Ring wrap-around.", "anchors": ["src/OccurrenceTimeIndex.c"]}
{"id": "C30", "title": "The inverted atom index is exact", "statement": "After any history of concept additions and removals, the concepts listed under a simple atom are exactly the currently stored concepts whose term mentions that atom in its indexed positions, each listed once.", "quantifier": "all histories of additions and removals", "why_tests_cant": "Pool recycling and chain editing.", "anchors": ["src/InvertedAtomIndex.c"]}
{"id": "C31", "title": "Usefulness is a bounded score", "statement": "The usefulness of a concept is in [0,1], never increases while the concept is unused, and increases with use.", "quantifier": "all usage counts and times", "why_tests_cant": "All integers.", "anchors": ["src/Usage.c"]}
{"id": "C32", "title": "Each input is independent evidence", "statement": "Input events get pairwise different evidence ids since the last reset, starting at 1, except inputs preceded by a stamp import which get exactly the imported base, once.", "quantifier": "all input histories", "why_tests_cant": "History dependent.", "anchors": ["src/Event.c:Event_InputEvent", "src/Event.c:Event_INIT", "src/Shell.c"]}
{"id": "C33", "title": "Belief update keeps the better opinion", "statement": "When an event meets an existing belief of the same statement, the result is the incoming one if there was none, the revision of both if they are independent, same-time evidence, and otherwise the more confident of the two; the stored confidence never decreases.", "quantifier": "all pairs of events with valid truth", "why_tests_cant": "All combinations of overlap, time and truth.", "anchors": ["src/Inference.c:Inference_RevisionAndChoice"]}
{"id": "C34", "title": "Concept memory is consistent", "statement": "After any history of concept creations and evictions: looking up a term finds a concept iff one with exactly that term is stored; there is at most one concept per term, at most 16384 concepts, and ids are pairwise distinct.", "quantifier": "all histories of conceptualisation with arbitrary terms and priorities", "why_tests_cant": "Three data structures (queue, hash map, inverted index) have to agree after each eviction.", "anchors": ["src/Memory.c:Memory_Conceptualize", "src/Memory.c:Memory_FindConceptByTerm"]}
{"id": "C35", "title": "Forgetting drops the least useful concept", "statement": "When the concept memory is full, creating a concept evicts exactly one concept of lowest priority, and all its index entries vanish with it.", "quantifier": "all full memory states", "why_tests_cant": "All priority configurations.", "anchors": ["src/Memory.c:Memory_Conceptualize"]}
{"id": "C36", "title": "Attention queues are bounded, duplicate free and filtered", "statement": "The cycling belief and goal event queues never exceed 40 and 400 events; an event equal to one already queued is not queued again; derived events below minimal confidence or without priority are never queued.", "quantifier": "all histories of event additions and selections", "why_tests_cant": "History dependent.", "anchors": ["src/Memory.c:Memory_AddEvent", "src/Memory.c:Memory_addCyclingEvent", "src/Cycle.c:Cycle_PopEvents"]}
{"id": "C37", "title": "Symbols are interned faithfully", "statement": "Two atom names get the same atom iff they are the same string, an atom keeps its number and its printed name forever, distinct from all reserved symbols; running out of symbols is reported.", "quantifier": "all sequences of names", "why_tests_cant": "65536 names and name/hash collisions.", "anchors": ["src/Narsese.c:Narsese_AtomicTermIndex", "src/Narsese.c:Narsese_INIT"]}
{"id": "C38", "title": "Unification is sound", "statement": "If unifying a general term with a specific one succeeds, applying the resulting substitution to the general term gives exactly the specific term, and only variables are bound, consistently.", "quantifier": "all pairs of terms", "why_tests_cant": "All tree shapes; repeated variables.", "anchors": ["src/Variable.c:Variable_Unify", "src/Variable.c:Variable_ApplySubstitute"]}
{"id": "C39", "title": "Unification is complete on matching instances", "statement": "Unification succeeds whenever the specific term is an instance of the general one that satisfies the variable-type restrictions.", "quantifier": "all pairs of terms", "why_tests_cant": "As above, the negative direction.", "anchors": ["src/Variable.c:Unify2"]}
{"id": "C40", "title": "Normalising variables only renames", "statement": "Normalising the variables of a statement renames them injectively: different variables stay different, so the meaning is unchanged.", "quantifier": "all terms", "why_tests_cant": "Only some numbering patterns clash.", "anchors": ["src/Variable.c:Variable_Normalize"]}
{"id": "C41", "title": "Introducing variables only generalises", "statement": "Variable introduction replaces only atoms occurring repeatedly by variables and leaves everything else; substituting back recovers the original statement.", "quantifier": "all statements", "why_tests_cant": "All shapes.", "anchors": ["src/Variable.c:Variable_IntroduceImplicationVariables", "src/Variable.c:Variable_IntroduceConjunctionVariables"]}
{"id": "C42", "title": "Narsese parsing is total and memory safe", "statement": "Every input string is either turned into a term or reported as malformed, without access outside the buffers.", "quantifier": "all strings", "why_tests_cant": "Infinitely many inputs; nesting depth and length limits.", "anchors": ["src/Narsese.c:Narsese_Term", "src/Narsese.c:buildBinaryTree", "src/Narsese.c:Narsese_PrefixTransform", "src/Narsese.c:Narsese_Expand"]}
{"id": "C43", "title": "Input text length is enforced by every stage", "statement": "Each text stage (copula canonicalisation, expansion) never produces more than a fixed multiple of its input and never writes outside its buffer.", "quantifier": "all strings", "why_tests_cant": "All strings.", "anchors": ["src/Narsese.c:Narsese_replaceWithCanonicalCopulas", "src/Narsese.c:Narsese_Expand"]}
{"id": "C44", "title": "Printing then parsing gives the same term", "statement": "Printing a term in Narsese and parsing the text again yields the same term.", "quantifier": "all well-formed terms that fit the size limit", "why_tests_cant": "Infinitely many terms.", "anchors": ["src/Narsese.c:Narsese_PrintTerm", "src/Narsese.c:Narsese_Term"]}
{"id": "C45", "title": "Operations are registered where asked and only there", "statement": "Registering an operation fills exactly one operation slot, re-registering the same name replaces its procedure, and look-up by term finds exactly the registered operation.", "quantifier": "all registration histories", "why_tests_cant": "History dependent.", "anchors": ["src/NAR.c:NAR_AddOperation", "src/Memory.c:Memory_getOperationID"]}
{"id": "C46", "title": "Operations run only on sufficiently desired decisions", "statement": "An operation is executed only if a decision's desire exceeds the decision threshold (or by babbling), it is a registered operation, and among candidates the one of greatest desire is chosen.", "quantifier": "all goals, belief tables and random draws", "why_tests_cant": "All table contents and random draws.", "anchors": ["src/Decision.c:Decision_Suggest", "src/Decision.c:Decision_BestCandidate", "src/Decision.c:Decision_BetterDecision", "src/Decision.c:Decision_Execute"]}
{"id": "C47", "title": "Babbling picks only enabled operations", "statement": "Motor babbling selects an operation number within the number of registered and allowed operations for every random draw, and is suppressed when a sufficiently confident decision exists.", "quantifier": "all random draws and configurations", "why_tests_cant": "All 32768 draws times all configurations.", "anchors": ["src/Decision.c:Decision_MotorBabbling", "src/Decision.c:Decision_Suggest"]}
{"id": "C48", "title": "Questions get the best stored answer", "statement": "The answer to a question is a stored belief that unifies with the question and has the greatest truth expectation (respectively projected) among all stored matching beliefs; if there is a matching one an answer is given.", "quantifier": "all memory contents and questions", "why_tests_cant": "All memory contents.", "anchors": ["src/NAR.c:NAR_AddInputNarsese2"]}
{"id": "C49", "title": "Implausible statement shapes are never admitted", "statement": "No event whose term is a nested higher-order statement, a statement about a repeated atom, or otherwise in the filtered classes is added by declarative inference.", "quantifier": "all derived terms", "why_tests_cant": "All shapes.", "anchors": ["src/NAL.c:NAL_DerivedEvent"]}
{"id": "C50", "title": "Derivations record their premises' evidence and time", "statement": "Each inference rule's conclusion carries the zipped evidence of both premises, the later creation time, and the occurrence time its rule prescribes; a learned implication's time offset is the distance of its events.", "quantifier": "all premises", "why_tests_cant": "All field combinations.", "anchors": ["src/Inference.c"]}
{"id": "C51", "title": "Averaged time offset stays between the observed ones", "statement": "Revising two temporal implications gives a time offset between the two offsets.", "quantifier": "all pairs of implications with valid truth", "why_tests_cant": "Continuum.", "anchors": ["src/Inference.c:Inference_ImplicationRevision"]}
{"id": "C52", "title": "Time advances one tick per cycle", "statement": "Executing n cycles advances the clock by exactly n, and inputs advance it exactly as documented, so occurrence times of successive inputs are increasing.", "quantifier": "all command histories", "why_tests_cant": "History dependent.", "anchors": ["src/NAR.c:NAR_Cycles", "src/NAR.c:NAR_AddInput", "src/Cycle.c:Cycle_Perform", "src/Shell.c"]}
{"id": "C53", "title": "Concurrent cycles and inputs are serialised", "statement": "With the network server running, every interleaving of background cycles and received inputs has the effect of some sequential order of complete cycles and complete inputs.", "quantifier": "all schedules of the two threads", "why_tests_cant": "All interleavings.", "anchors": ["src/NetworkNAR/UDPNAR.c"]}
{"id": "C54", "title": "Attention values stay in range", "statement": "Event and concept priorities stay in [0,1] through selection, derivation and forgetting.", "quantifier": "all histories", "why_tests_cant": "Long-run floating point behaviour.", "anchors": ["src/Cycle.c:Cycle_RelativeForgetting", "src/Memory.c:Memory_AddEvent", "src/Cycle.c:Cycle_PopEvents"]}
{"id": "C55", "title": "Failed anticipations only weaken the responsible link", "statement": "A disappointed anticipation adds negative evidence to exactly the responsible implication, lowering (never raising) its frequency.", "quantifier": "all implications with valid truth", "why_tests_cant": "Continuum and all tables.", "anchors": ["src/Decision.c:Decision_AddNegativeConfirmation", "src/Decision.c:Decision_Anticipate"]}
{"id": "C56", "title": "Operation sequences are length limited", "statement": "Stored event sequences consist of at most 3 events; longer compositions are never created.", "quantifier": "all histories of events", "why_tests_cant": "History dependent.", "anchors": ["src/Cycle.c:Cycle_ProcessBeliefEvents", "src/Narsese.c:Narsese_SequenceLength"]}
{"id": "C57", "title": "Goal decomposition is faithful", "statement": "A sequence goal is decomposed into its component events from left to right, and a subgoal is derived for exactly the first component not yet satisfied by current beliefs.", "quantifier": "all sequence goals and belief states", "why_tests_cant": "All lengths and belief configurations.", "anchors": ["src/Cycle.c:Cycle_GoalSequenceDecomposition"]}
{"id": "C58", "title": "Shell commands are dispatched exactly", "statement": "Every input line is interpreted as exactly one of: comment, number of cycles, a * command, quit, or a Narsese sentence; configuration commands change only their parameter.", "quantifier": "all input lines", "why_tests_cant": "All strings.", "anchors": ["src/Shell.c:Shell_ProcessInput"]}
{"id": "C59", "title": "Symmetric connectors and set terms are parsed as their canonical operators", "statement": "Each user-level multi-character copula is replaced by its one-character code, text without copulas is unchanged, and the replacement is independent of what surrounds it, except inside longer copulas.", "quantifier": "all strings", "why_tests_cant": "All strings.", "anchors": ["src/Narsese.c:Narsese_replaceWithCanonicalCopulas"]}
{"id": "C60", "title": "Declarative inference follows exactly the documented rules", "statement": "From one or two statements the system concludes exactly the statements, with exactly the truth functions, that the rules written in NAL.h yield: every conclusion is an instance of a documented rule (in either premise order) after one documented reduction, every applicable documented rule concludes, conclusions of well-formed statements are well-formed, and nothing else enters memory when rules are applied.", "quantifier": "all statements, all truth values, all rules, all memories", "why_tests_cant": "134 rules over unboundedly many terms; completeness (no missed and no spurious match) is a statement about all terms.", "anchors": ["src/NAL.h", "src/NAL.c:NAL_GenerateUnifier", "src/NAL.c:NAL_GenerateRule", "RuleTable_Apply", "RuleTable_Reduce"]}
{"id": "C61", "title": "No input line crashes the shell", "statement": "Whatever line of text is entered, the program survives it: the line is executed or rejected with an error message, but memory is never read or written out of bounds and no arithmetic or conversion is undefined.", "quantifier": "all lines, in all states of the running program", "why_tests_cant": "All strings in all states.", "anchors": ["src/Shell.c:Shell_ProcessInput", "src/NAR.c:NAR_AddInputNarsese2"]}
{"id": "C62", "title": "*reset gives a fresh system with the same settings", "statement": "After *reset the system behaves as one just started with the same parameter settings: no concept, event, operation, name, value, id or clock value survives.", "quantifier": "all sessions before the reset", "why_tests_cant": "All histories before, all observations after.", "anchors": ["src/Shell.c:Shell_NARInit", "src/NAR.c:NAR_INIT"]}
{"id": "C63", "title": "The network server starts and stops cleanly", "statement": "UDPNAR_Start hands both threads valid arguments before it returns; after UDPNAR_Stop is called every schedule leads to its return, then both threads have ended and no input or cycle was interrupted.", "quantifier": "all schedules of the three threads", "why_tests_cant": "All interleavings.", "anchors": ["src/NetworkNAR/UDPNAR.c:UDPNAR_Start", "src/NetworkNAR/UDPNAR.c:UDPNAR_Stop"]}
{"id": "C64", "title": "An accepted belief is remembered", "statement": "A belief given to the memory with enough confidence and priority is remembered: a statement by the concept of its term, as present or past event, as prediction or as timeless belief, each combined with what was remembered before; an implication <a =/> b> or <(a &/ op) =/> b> as link of the concept of b under the operation, from the concept of a. No other concept is changed, except that C35 allows one to be forgotten for each new one. Where the strength of a link is asked for, it is that of the remembered implication.", "quantifier": "all lives of a reasoner, all beliefs, all memory contents", "why_tests_cant": "Depends on all that was stored and forgotten before, and on the priorities of all concepts.", "anchors": ["src/Memory.c:Memory_AddEvent", "src/Memory.c:Memory_ProcessNewBeliefEvent", "src/Memory.c:Memory_getTemporalLinkTruth"]}
{"id": "C65", "title": "Everything held rests on inputs", "statement": "At any time, every belief, recent event, prediction, goal, learned link and queued event in memory has an evidential base of at most 10 ids, each of which was given to an input since the last reset (ids 1, 2, ... below the next id) or imported by the user; processing never invents evidence, and the ids given to inputs only grow.", "quantifier": "all histories of inputs, cycles, questions, configuration changes, imports and resets; all configurations and environments; all shell sessions that do not set the id counter", "why_tests_cant": "Every inference, revision, link, anticipation and goal path copies or combines stamps; one wrong or stale stamp on a rare path invents or double counts evidence, which a test of outputs does not see.", "anchors": ["src/Event.c:Event_InputEvent", "src/Inference.c", "src/Cycle.c:Cycle_Perform", "src/Memory.c:Memory_AddEvent", "src/Decision.c:Decision_Anticipate", "src/Shell.c"]}
{"id": "C66", "title": "Links are learned from observed succession", "statement": "When an event is followed by another one, the reasoner learns the temporal implication between them, with truth, evidence and time offset taken from the two events, and only if both are beliefs about different known concepts, rest on separate evidence and the connection is confident and small enough. It then is a link of the concept of the later event. Rules with operations are only learned for operations carried out shortly before the later event, from what was the case just before the operation; events older than 20 time steps are not connected.", "quantifier": "all lives of a reasoner, all pairs of events, all memory contents", "why_tests_cant": "Depends on everything observed before, on which concepts were kept, and on the truth values and stamps of both events.", "anchors": ["src/Cycle.c:Cycle_ReinforceLink", "src/Cycle.c:Cycle_ProcessBeliefEvents", "src/NAL.c:NAL_DerivedEvent", "src/Memory.c:Memory_AddEvent"]}
{"id": "C67", "title": "Goals give rise to subgoals", "statement": "In every cycle, the best waiting goal of each layer is selected. If it is a sequence it is decomposed (C57); otherwise, if some operation is good enough for it, that is executed and all waiting goals are dropped; if not, the goal is kept at every concept related to it that matches it (each is visited exactly once), and every link that leads to the goal, is not outdated and applies to it yields one subgoal: its condition without the operation, with the truth and evidence of goal and link, queued in the next layer with the goal's priority times the subgoal's expectation. Outdated links are dropped, nothing else changes.", "quantifier": "all lives of a reasoner, all configurations, all cycles, all goals, all memory contents", "why_tests_cant": "What follows from a goal depends on all links learned before, on which concepts were forgotten since, and on the order in which related concepts are visited.", "anchors": ["src/Cycle.c:Cycle_ProcessAndInferGoalEvents", "src/Cycle.c:Cycle_ProcessSensorimotorEvent", "src/Cycle.c:Cycle_GoalSequenceDecomposition", "src/Inference.c:Inference_GoalDeduction", "src/Cycle.c:RELATED_CONCEPTS_FOREACH"]}
{"id": "C68", "title": "Inference combines the selected belief with related concepts", "statement": "In every cycle, the selected belief event is used for inference: first the conclusions of the rules from the event alone are told to the memory; then the event is combined with the concepts related to it, each at most once, its own first, only those whose priority reaches the adaptive threshold, and at most 80. Combining means: if the latest event of the concept is near in time it is projected to the event's time and used, otherwise the concept's timeless belief; if both premises share evidence nothing happens; otherwise exactly the conclusions of the rules, and exactly those obtained by matching one premise with the condition or consequence of an implication, a side of an equivalence or the first part of a conjunction, are told, with the rule's truth function and the evidence of both premises. A conclusion is dropped only if it is implausible or the concept was replaced meanwhile.", "quantifier": "all memory contents, all selected events, all times, all rounds and all threshold values", "why_tests_cant": "What is combined depends on the whole memory content, on evidence histories and on concepts being forgotten while conclusions are told; matching ranges over all pairs of terms.", "anchors": ["src/Cycle.c:Cycle_Inference", "src/Cycle.c:Cycle_SpecialInferences", "src/RuleTable.h:RuleTable_Apply", "src/NAL.c:NAL_DerivedEvent", "src/Stamp.c:Stamp_checkOverlap"]}
{"id": "C69", "title": "Belief events reach every concept they concern, and measurements are compared", "statement": "A belief event selected in a cycle that is recent and not processed yet gets a concept; each concept sharing a part with the event is looked at exactly once, and if the event is a case of what the concept is about (or, if the event has variables, the concept a case of it) and no later event is known there, it becomes the concept's latest event; nothing else changes and no decision is made. Then links are learned from what was done before, and the event is related to the concepts noticed last, newest first; if it was input, expectations are checked. Other events change nothing. Two successive measurements of the same simple attribute yield the statement that relates the location of the larger value to the other, or both as equal, also after preceding events; nothing else is compared.", "quantifier": "all lives of a reasoner, all events, all memory contents, all terms and values", "why_tests_cant": "Which concepts an event reaches depends on all terms stored and on the order of hash chains; the comparison ranges over all terms of the given form and all values.", "anchors": ["src/Cycle.c:Cycle_ProcessSensorimotorEvent", "src/Cycle.c:Cycle_ActivateSensorimotorConcept", "src/Cycle.c:Cycle_ProcessBeliefEvents", "src/Cycle.c:RELATED_CONCEPTS_FOREACH", "src/Config.h:ATTRIBUTE_TERM_RELATIONS"]}
{"id": "C70", "title": "What executing a decision does", "statement": "When a decision is executed, the rule it is based on (if known and without variables) is compared with each rule kept for the same operation and outcome. For exactly the rules that differ in the condition only, have separate evidence and conditions of equal length after dropping common parts, the implications between both differing parts are told, in both directions, with the truth of induction and of abduction and the evidence of both, each with up to two generalisations, unless one is believed to follow the other in time. Then the operation is done exactly once; if its procedure succeeds and its answer fits, the operation with its arguments (the answer filled in) is input as present belief of default truth and a cycle is performed; afterwards negative evidence is added to the rule not known to work in this case, if there is one. Without a successful answer nothing else happens.", "quantifier": "all decisions, all memory contents, all behaviours of the operations' procedures and of standard input", "why_tests_cant": "What is learned depends on all rules kept for the operation and on their evidence; procedures and their answers are arbitrary.", "anchors": ["src/Decision.c:Decision_Execute", "src/Inference.c:Inference_BeliefInduction", "src/Memory.c:Memory_getTemporalLinkTruth", "src/Variable.c:Variable_IntroduceImplicationVariables2", "src/Decision.c:Decision_AddNegativeConfirmation"]}
{"id": "C71", "title": "Metrics sent to a statistics server", "statement": "Sending a metric hands the network one datagram of 130 bytes: the name, ':', the value in decimal notation, '|c', filled up with zeros. Metrics are sent in the order of the calls, and all through one socket asked for at the first metric. Name and value can be read off the datagram: different metrics have different datagrams. A metric whose text is longer than 129 bytes is never sent.", "quantifier": "all names (C strings), all int values, all sequences of metrics, all results of opening a socket", "why_tests_cant": "Names of any length and all values; ambiguity is a statement about all pairs of metrics, the socket's fate one about all histories and failures.", "anchors": ["src/NetworkNAR/Metric.c:Metric_send", "src/NetworkNAR/UDP.c:UDP_SendData", "src/NetworkNAR/UDP.c:UDP_INIT_Sender"]}
{"id": "C72", "title": "What the command line starts", "statement": "Without arguments the tests run and the help is shown. With 'NAL_GenerateRuleTable' first, the rule table is written and nothing else is done. Otherwise the shell is started if it is named first; then each argument that is the name of an example runs it, in order, with the number in the next argument as iterations (0 if it is none, no limit at the end); then the server if 'UDPNAR' is first, with the address, port, step and derivation setting of the next four arguments; then the inspection commands are performed if 'InspectionOnExit' is the second or third argument. Each argument is used once, and no argument list crashes the program.", "quantifier": "all argument lists", "why_tests_cant": "Argument lists of any length and content; every argument interacts with its neighbours and its position.", "anchors": ["src/main.c:Process_Args", "src/main.c:main"]}
{"id": "C73", "title": "Printed evidence can be imported", "statement": "The evidence of a sentence is printed as 'Stamp=[...]' with its ids in decimal notation, in order, separated by commas. The command '*stampimport=[...]' with the printed list makes exactly this evidence the imported one and changes nothing else. Different evidence is printed differently.", "quantifier": "all stamps the program can build (up to ten ids, each any long but 0), all states of the shell", "why_tests_cant": "Ids are any 64-bit numbers and every number and length of ids must survive printing and reading.", "anchors": ["src/Stamp.c:Stamp_print", "src/Shell.c:Shell_ProcessInput"]}
{"id": "C74", "title": "Every truth function is the boolean-extension formula it should be", "statement": "Read the frequencies of two premises as the chances of two independent events and evidence w as confidence w/(w+1). Then each of the 24 truth functions returns, in exact arithmetic, the frequency and confidence that its logical meaning dictates: intersection, union and difference have the chance of 'both', 'either', 'only the first'; deduction, analogy, resemblance and the decompositions weaken the confidence by the chance that their condition holds; abduction, induction, exemplification, comparison and conversion count the relevant cases as evidence; goal deduction picks the better supported of the two readings. Equality and comparisons of frequencies in doubles are decided on the exact values, without a tolerance.", "quantifier": "all truth functions of the rule table, all pairs of valid truth values", "why_tests_cant": "Twenty-four formulas over a four-dimensional continuum; a swapped argument agrees with the right formula on all symmetric test points.", "anchors": ["src/Truth.c", "src/Truth.h"]}
