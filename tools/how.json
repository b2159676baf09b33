{
 "C01": [
  "HashSet (buckets of sorted vectors, rehash on growth and shrinkage), State on top; std::hash arbitrary.",
  "Invariant `wf` over histories of calls; membership spec is a predicate on atoms."
 ],
 "C02": [
  "HashSet size, empty, iterators.",
  "Same invariant; traversal is the concatenation of buckets, shown duplicate-free and complete."
 ],
 "C03": [
  "HashSet::operator==, bucket count after any history.",
  "The bucket count is a function of the size only (2^k-1 rule), each bucket is sorted, hence layout is canonical."
 ],
 "C04": [
  "std::hash<State> folding hash_combine over the traversal, on 64 bit words.",
  "Corollary of the canonical layout."
 ],
 "C05": [
  "PropositionRef with precomputed predicate hash (second code path).",
  "Equality of the two hash computations, then of the lookups."
 ],
 "C06": [
  "operator< of Proposition, State, PartialState (lexicographic).",
  "Lemmas on lexicographic orders over lists and pairs."
 ],
 "C07": [
  "PartialState::insert/erase and constructors.",
  "Invariant over histories; return codes by cases."
 ],
 "C08": [
  "PartialState::contains/does_not_contain with the exception.",
  "Cases on the two sets."
 ],
 "C09": [
  "CombinationGenerator, its iterator (incremental digits), size with int/size_t conversions.",
  "Simulation of the iterator against positions, mixed-radix arithmetic."
 ],
 "C10": [
  "CombinationGenerator::find and operator[].",
  "Mixed-radix arithmetic; options without repetition."
 ],
 "C11": [
  "Iterator moves ++, --, +=, -=, also reverse iterators.",
  "Simulation; refuted where digits become stale. C11_exact follows the position at which each slot was last written."
 ],
 "C12": [
  "at with negative indices, int arithmetic.",
  "Case analysis with explicit wrap-around."
 ],
 "C13": [
  "CreateObjectTypeMap, ParameterGenerator.",
  "Induction on objects and the type chain; C09."
 ],
 "C14": [
  "Object::Type::IsSubtype, ListTypes, object map.",
  "Induction on the chain of parents."
 ],
 "C15": [
  "to_string of calls, ParseHead, TokenizeArguments on byte strings.",
  "Round trip on a grammar of calls (`call_text`), which also describes arbitrary text."
 ],
 "C16": [
  "State(pddl, strings), Stringify.",
  "C15 and set extensionality."
 ],
 "C17": [
  "Action::Parse with its checks.",
  "Equivalence with `good_call`; classes of exceptions."
 ],
 "C18": [
  "Formula compiled to closures with shared argument buffers.",
  "Equivalence with Tarski semantics (`holds`)."
 ],
 "C19": [
  "The same buffers between evaluations (explicit store).",
  "The value is a function of atoms and arguments for every store content; also for every interleaving of closures."
 ],
 "C20": [
  "Evaluation on PartialState (three-valued, exceptions caught in negation, and, or).",
  "Simulation against all completions."
 ],
 "C21": [
  "As C20.",
  "Monotonicity by induction on the formula; relevance relation."
 ],
 "C22": [
  "CreateAdd/CreateDel and the order of the lists in CreateEffectsFunction.",
  "Interpreter lemma for literal lists."
 ],
 "C23": [
  "Full effect interpreter.",
  "Induction on effect trees."
 ],
 "C24": [
  "Status codes of effects, axioms, for both kinds of states.",
  "Induction on fuel and effect trees."
 ],
 "C25": [
  "CreateForall of effects.",
  "Interpreter lemma with the product of objects; exact sequential meaning."
 ],
 "C26": [
  "CreateCond.",
  "Independence argument; refuted in general; exact sequential meaning."
 ],
 "C27": [
  "Effect interpreter on PartialState.",
  "Simulation; refuted in general."
 ],
 "C28": [
  "Axiom::CreateApplicationFunction and shared argument vectors (explicit store).",
  "Refinement to a substitution semantics by induction on rank."
 ],
 "C29": [
  "Axiom::IsConsistent/Apply, Pddl::ConsistentState/IsValidState on States.",
  "Loop invariant."
 ],
 "C30": [
  "As C29.",
  "Fixpoint argument; meaning of IsValidState as implications."
 ],
 "C31": [
  "IsValidState on PartialStates.",
  "Simulation of the partial fixpoint inside any valid completion."
 ],
 "C32": [
  "ConsistentState on PartialStates.",
  "Loop invariant."
 ],
 "C33": [
  "DerivedPredicate::Apply and its loops.",
  "Fixpoint argument."
 ],
 "C34": [
  "As C33.",
  "Frame lemma; fixpoint."
 ],
 "C35": [
  "As C33, termination.",
  "Measures by rank; monotone iteration; divergence by induction on fuel."
 ],
 "C36": [
  "StateIndex: cumulative sums, predicate lookup, generators.",
  "Arithmetic of cumulative sums, C10, C13."
 ],
 "C37": [
  "GetState, GetIndexedState.",
  "C36."
 ],
 "C38": [
  "The caches of StateIndex.",
  "Cache invariant over sequences of queries."
 ],
 "C39": [
  "ApplyActions, NextState, Apply, DerivedState.",
  "Fold laws and C28/C33 for the meaning."
 ],
 "C40": [
  "IsValidTuple, both overloads.",
  "C18, C39."
 ],
 "C41": [
  "IsValidPlan, IsGoalSatisfied.",
  "C18, C39."
 ],
 "C42": [
  "ListValidActions, ListValidArguments.",
  "Filter of the enumerated tuples (C13), C18, C15."
 ],
 "C43": [
  "Planner::Node, its iterator and memory of ancestors.",
  "Simulation of the two-level iterator by a comprehension."
 ],
 "C44": [
  "BreadthFirstSearch iterator over an arbitrary graph, clock as oracle.",
  "Invariant of the queue."
 ],
 "C45": [
  "As C44.",
  "Level-order characterisation of the yielded sequence."
 ],
 "C46": [
  "As C44.",
  "Level-order characterisation."
 ],
 "C47": [
  "As C44 with an arbitrary clock.",
  "Prefix lemma."
 ],
 "C48": [
  "Planner nodes with any of the three searches.",
  "Invariant on ancestors."
 ],
 "C49": [
  "Planner with the searches against IsValidPlan.",
  "C43 and C44 composed with C41."
 ],
 "C50": [
  "DepthFirstSearch iterator.",
  "Characterisation of the stack machine."
 ],
 "C51": [
  "AStar iterator with std::priority_queue by contract.",
  "Invariant on the multiset of open nodes."
 ],
 "C52": [
  "DisjunctiveFormula::Create from goals.",
  "Semantic lemma for each operation. C52_exact by induction with an invariant that also tracks when the result is empty: without = and types no conjunction evaluates to true, and every remaining one is satisfiable."
 ],
 "C53": [
  "Simplify, Evaluate, TryInsertSubset, IsSubset.",
  "Semantic lemmas."
 ],
 "C54": [
  "As C53.",
  "Invariant of insertion."
 ],
 "C55": [
  "Pddl::AddObject.",
  "Computation of the effect on lookups and lists, histories of edits."
 ],
 "C56": [
  "Pddl::RemoveObject with deleted symbols.",
  "Histories of edits; reads of deleted symbols are UB."
 ],
 "C57": [
  "All of the above with empty parameter lists.",
  "Computation."
 ],
 "C58": [
  "symbolic/problem.py.",
  "Lemmas on balance, tokens and typed lists."
 ],
 "C59": [
  "DisjunctiveFormula::Create from effects.",
  "Semantic lemma for each operation. C59_exact likewise (Spec/ReadingSpec)."
 ],
 "C60": [
  "Proposition::to_pddl.",
  "String lemmas."
 ],
 "C61": [
  "GetInitialState and the constructor of Pddl.",
  "Fold lemma; C29, C30."
 ],
 "C62": [
  "Planner with BreadthFirstSearch.",
  "C45, C43 and removal of loops from a valid plan."
 ],
 "C63": [
  "The Python bindings of StateIndex (src/python/symbolic.cc).",
  "C36; refutations by computation."
 ],
 "C64": [
  "The four Normalize functions on domains (Normalize.v).",
  "C52, C59, C18 and C26; C32 for each conjunction; every well-formed State is built by insertions."
 ],
 "C65": [
  "The functions of symbolic.cc that take and return sets of strings (Python.v).",
  "Every function keeps the propositions of a State over declared objects (induction over effects, axiom cascades and loops); on such States printing and parsing is the identity, also after reordering; then C29-C35, C39-C41 on States."
 ],
 "C66": [
  "The while loops of IsValidState and ConsistentState on PartialStates.",
  "A direct literal with status 1 makes an unknown atom known, known atoms stay known, and all atoms come from a finite set (induction over effects and cascades); the number of unknown atoms decreases. A chain of 51 dependent atoms for the limit."
 ],
 "C67": [
  "The strings built by CreateFormula, with the stringstream that is overwritten from the start (Print.v).",
  "Induction over formulas: tokens of the text; counting parentheses shows that quantifiers leave it unbalanced; the tokens determine the formula."
 ],
 "C68": [
  "The output operators of State, PartialState, the normal forms and nodes (Print.v).",
  "Sorting gives the unique increasing list; texts are cut at closing parentheses, line ends and escape characters. The layout theorems give these texts line by line."
 ],
 "C69": [
  "StringifyFormula with the dereferenced optional (Print.v).",
  "Computation of Create, Conjoin and Negate on single conjunctions."
 ],
 "C70": [
  "The iterator with it_action_, it_param_ (a combination iterator) and child_, operator++, operator-- and operator== (PlannerSteps.v).",
  "The list of all pairs of action and tuple is split at the cursor; each loop finds the next or previous pair that yields a child. What an attempt yields depends on neither sibling nor store."
 ],
 "C71": [
  "Python objects on a heap with the reference root_ and the pointer bfs_ as positions on it; construction, __iter__ (a copy), __next__ and freeing (PySearch.v), over the search of Search.v.",
  "The heap refines counters into lists of plans: what a queue still yields is the rest of the list. StopIteration is permanent because ++ of an iterator without queue does nothing."
 ],
 "C72": [
  "The loop of std::lower_bound on positions with unchecked reads, std::is_sorted, std::unique, the constructor and the calls of UniqueVector; HashSet again on top of them with asserts, remainders by zero and sets left by a move; the State of state.h 37 (UniqueVector.v).",
  "The search keeps the wanted position in its range and halves the range; calls with asserts equal calls of HashSet.v on sorted buckets, and all buckets of every history are sorted. The vector State and the hash set are related by having the same keys."
 ],
 "C73": [
  "ParsePddl's choice between text and file, both constructors around an arbitrary parser, null pointers of a Pddl without a problem, set_initial_state, AddObject, RemoveObject, repr and pickling (Load.v). Python literals are specified by a small reader (LoadSpec.v).",
  "Induction on the argument for the last character; the text of a Problem is shown to end with a parenthesis; the constructors differ only in the initial state, so a copy is computed from the original; changes keep both arguments (induction on the sequence)."
 ],
 "C74": [
  "Planner.v and Search.v; direct plans are sequences of calls between sets of atoms (DirectSpec.v), without nodes or searches.",
  "Paths of nodes and direct plans are matched step by step: a child is determined by its call, and the States of its ancestors are the sets passed. The lists of paths come from C45, C50 and C51; more fuel does not change a search that ends."
 ],
 "C75": [
  "App.v: std::stoi, ParseArgs, main, and operator++ of breadth-first search with its printing, as code that returns the text printed and an outcome.",
  "Command lines have their own grammar (AppSpec.v). The visits are specified by levels of paths, without a queue; a queue run is shown to visit level by level, and the text is compared visit by visit. Erasing the text gives Search.v, so C74 applies. The text of a plan is specified line by line, each call with the state it leads to (AppListing.v), and can be read back."
 ],
 "C76": [
  "Pddl.v, Planner.v and Search.v; the PDDL semantics is given on sets of atoms by literals of effects (PlainSpec.v), without executing effects.",
  "The effects are applied as C26 says, so that NextState is PDDL's transition; the sets attained stay orderly. Plans follow by induction with C41, search with C74."
 ],
 "C77": [
  "Bundled.v: the two files as syntax trees; load, is_valid_action, next_state, bfs_all as in Load.v, Pddl.v and Search.v.",
  "The effects and preconditions are computed as sets of atoms (C76); the invariant by cases on moves. The plans: a run of the search with one hash function lists the direct plans (C74), which do not depend on it; a shortest solution is direct."
 ],
 "C78": [
  "Construct.v: the constructors with everything that can fail, in their order; make_pddl in Pddl.v calls it before making the initial state consistent.",
  "Checks for unknown formulas and for numbers of arguments compose (verdict); the normal forms of simple axioms as in C69."
 ],
 "C79": [
  "Listing.v: text written to a stream, addresses an arbitrary function of the place; symbols as parsed, with a null type as the empty chain.",
  "Readability by induction on formulas and effects: what follows a formula is not indented as deep, so the indentation tells where it ends. Outcomes compose as in C78."
 ],
 "C80": [
  "PyNode.v: objects of a program as a list of nodes and iterators; references to nodes and to the child inside an iterator; pybind11's make_iterator with its first_or_done flag; whether the Pddl exists.",
  "Refinement: a relation between iterators and their abstraction (node, number of children given) is kept by every operation; positions of iterators as in C70. Loops by induction on the remaining children."
 ],
 "C81": [
  "PyArgs.v: objects of a program as a list of argument lists and iterators; lists from a loop refer to the slots of the iterator's combination (pybind11's list_caster keeps reference_internal); make_iterator's first_or_done flag; ParameterGenerator::find and Action::to_string with the pointer to the Pddl as null, dangling or good.",
  "Refinement as in C80: an iterator is abstracted to its generator and the number of tuples given; positions from C12. Loops by induction on the tuples left; text with C15."
 ],
 "C82": [
  "IndexIter.v: the iterator of state.h with its int position and stashed Proposition; programs over named iterators; references as names of iterators or of a temporary that is gone.",
  "Refinement: iterators and positions are related step by step; caches with the invariant of C38. Loops by induction on the list."
 ],
 "C83": [
  "PyObjects.v: objects_ as a std::vector with buffer, capacity and any growth function; references are buffers and positions; symbols are numbered and deleted by RemoveObject. Programs and the two natural loops.",
  "Refinement against held values with a flag that edits take away; invariant that elements have distinct undeleted symbols; loops by induction on the number of remaining references."
 ],
 "C84": [
  "StateLoop.v: iterators as pairs of indices into the current buckets (HashSet.v), the loops with end() cached or asked for in every step, the loop of State::insert over a range on the same State.",
  "Invariant 2 * size <= buckets + remaining elements while the number of buckets is the old one (every erase skips at most one element), against size > (buckets - 1) / 2, which the table keeps; once the table has shrunk the cached end() cannot be met. Induction on the size."
 ],
 "C85": [
  "PartialAlias.v: the argument as a place in the buckets, read again after the first set was changed; undefined once Rehash has replaced the buckets.",
  "The element behind the erased one takes its place (positions lemma of C84); if the table shrinks the buckets are freed, with one bucket nothing is left in it. Membership by the set specification of C01."
 ]
}