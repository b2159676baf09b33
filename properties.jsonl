{"id": "C01", "title": "State is a mathematical set", "statement": "After any sequence of insert/erase calls on an empty State, contains(p) is true exactly when the last call concerning p was an insert; every insert/erase returns true exactly when membership of its argument changed.", "quantifier": "every finite sequence of insert/erase calls, every proposition, every std::hash<string> function including ones with adversarial collisions", "why_tests_cant": "bucket layout depends on hash values and on the whole resize history; tests sample a few sequences with one libstdc++ hash", "anchors": ["include/symbolic/utils/hash_set.h: HashSet::insert, erase, contains, Rehash", "include/symbolic/utils/unique_vector.h: UniqueVector::insert, erase, contains", "src/state.cc: State::insert, State::erase"]}
{"id": "C02", "title": "State size and iteration", "statement": "size() equals the number of distinct propositions contained, empty() is size()==0, and a begin()-to-end() traversal visits every contained proposition exactly once and nothing else.", "quantifier": "every State reachable by inserts/erases and every hash function", "why_tests_cant": "requires an invariant across rehashes for all histories", "anchors": ["include/symbolic/utils/hash_set.h: size, const_iterator::FindNextElement, begin, end"]}
{"id": "C03", "title": "State equality is history independent", "statement": "Two States compare equal with == if and only if they contain the same propositions, no matter in which order and how often propositions were inserted and erased to build them, and they then iterate in the same order.", "quantifier": "every pair of operation histories, every hash function", "why_tests_cant": "operator== compares the raw bucket vectors, so it is only right if the bucket count is a function of the contents; that is a statement about all pairs of histories", "anchors": ["include/symbolic/utils/hash_set.h: operator==, Rehash, LowerBound, UpperBound"]}
{"id": "C04", "title": "Equal states have equal hashes", "statement": "If two States compare equal then std::hash<State> gives the same value, so they can be used as keys of unordered containers.", "quantifier": "all pairs of States built by any histories", "why_tests_cant": "the hash is order dependent (seed mixing while iterating), so it relies on canonical iteration order for all histories", "anchors": ["src/state.cc: std::hash<State>", "include/symbolic/utils/hash_set.h: const_iterator"]}
{"id": "C05", "title": "Borrowed and owned propositions are interchangeable", "statement": "Looking up, inserting or erasing a proposition through a borrowed reference with a precomputed predicate hash gives the same result as doing so with an owned Proposition of the same name and arguments.", "quantifier": "every state, name, argument list, and hash function", "why_tests_cant": "the two classes compute their hashes through different code paths; agreement is needed for all inputs or elements land in different buckets", "anchors": ["src/proposition.cc: Hash(prop), Hash(prop, predicate_hash)", "include/symbolic/proposition.h: PropositionRef, operator==, operator<", "include/symbolic/utils/hash_set.h: GetBucket"]}
{"id": "C06", "title": "State order is a strict total order compatible with equality", "statement": "operator< on Proposition, State and PartialState is irreflexive and transitive, and exactly one of a<b, b<a, a==b holds.", "quantifier": "all pairs/triples of propositions, of States and of PartialStates built by any histories", "why_tests_cant": "total-order laws are universally quantified over triples; sort/unique and sorted vectors silently corrupt when they fail", "anchors": ["include/symbolic/proposition.h: operator<, operator==", "include/symbolic/object.h: operator<", "include/symbolic/utils/hash_set.h: operator<", "include/symbolic/state.h: PartialState::operator<"]}
{"id": "C07", "title": "PartialState keeps positive and negative sets disjoint", "statement": "Starting from a consistent PartialState any sequence of insert/erase calls keeps it consistent, and each call returns 0 if the proposition already had the value, 1 if it was unknown, 2 if it had the opposite value.", "quantifier": "every finite sequence of insert/erase calls on a PartialState", "why_tests_cant": "invariant over all histories", "anchors": ["src/state.cc: PartialState::insert, PartialState::erase, IsConsistent", "include/symbolic/state.h: PartialState"]}
{"id": "C08", "title": "PartialState queries are three valued", "statement": "On a consistent PartialState contains and does_not_contain are exact opposites when the proposition is known and both raise the unknown-evaluation error exactly when it is in neither set.", "quantifier": "every consistent PartialState and proposition", "why_tests_cant": "all inputs", "anchors": ["src/state.cc: PartialState::contains, does_not_contain"]}
{"id": "C09", "title": "Combination generator enumerates the cartesian product", "statement": "Iterating a combination generator from begin to end yields each element of the cartesian product of its (non-empty list of non-empty) option lists exactly once per index, in lexicographic order, and size() is the product of the option sizes.", "quantifier": "every list of option lists", "why_tests_cant": "unbounded family of shapes; the iterator updates the current combination incrementally digit by digit", "anchors": ["include/symbolic/utils/combination_generator.h: CombinationGenerator, NumCombinations, ForwardIterator::UpdateCombination, begin, end"]}
{"id": "C10", "title": "find is the inverse of indexing", "statement": "For option lists without repeated elements find(gen[i]) == i for every valid index and gen[find(c)] == c for every combination c drawn from the options; find raises out_of_range for every combination with an element that is not in its option list.", "quantifier": "all option lists, indices and combinations", "why_tests_cant": "all inputs; mixed-radix arithmetic", "anchors": ["include/symbolic/utils/combination_generator.h: find, operator[], at"]}
{"id": "C11", "title": "Iterator position is all that matters", "statement": "After any sequence of moves (++, --, += n, -= n) of a combination-generator iterator, dereferencing it gives the same combination as indexing the generator with the position, whenever the position is in range.", "quantifier": "every generator and every finite sequence of moves", "why_tests_cant": "each move only rewrites the digits it believes changed, so correctness depends on the whole history of moves, including visits to end()", "anchors": ["include/symbolic/utils/combination_generator.h: ForwardIterator::UpdateCombination(idx_new), operator++, operator--, operator+=, operator-="]}
{"id": "C12", "title": "Checked indexing", "statement": "at(i) returns the i-th combination for 0 <= i < size, the (size+i)-th for -size <= i < 0, and raises out_of_range for every other int.", "quantifier": "every generator and every int", "why_tests_cant": "boundary behaviour over all ints, mixing signed and unsigned comparisons", "anchors": ["include/symbolic/utils/combination_generator.h: at"]}
{"id": "C13", "title": "Argument generation covers exactly the well typed tuples", "statement": "For an action, predicate, axiom or derived predicate with at least one parameter the argument generator enumerates exactly the tuples of declared objects in which every object is of (a subtype of) the corresponding parameter type, each once.", "quantifier": "every type hierarchy, object list and non-empty parameter list", "why_tests_cant": "all domains and problems", "anchors": ["src/utils/parameter_generator.cc: ParamTypes, ParameterGenerator", "src/pddl.cc: CreateObjectsMap", "include/symbolic/utils/combination_generator.h: begin, end"]}
{"id": "C14", "title": "Type tests agree", "statement": "For every object and type name: is_subtype answers true iff the type name is listed among the object's types, iff the object is listed under that type in the object map; listing preserves declaration order.", "quantifier": "every acyclic type hierarchy, object list and type name", "why_tests_cant": "all hierarchies", "anchors": ["src/object.cc: Type::IsSubtype, Type::ListTypes", "src/pddl.cc: CreateObjectsMap"]}
{"id": "C15", "title": "Proposition and action-call text round trips", "statement": "Parsing the text printed for a predicate or action call gives back the same name and argument names, and printing is injective, for all names free of parentheses, commas and white space.", "quantifier": "every name and argument list over the allowed alphabet", "why_tests_cant": "unbounded strings", "anchors": ["src/object.cc: Object::ParseArguments, TokenizeArguments", "src/proposition.cc: PropositionBase::to_string, ParseHead", "src/action.cc: Action::to_string, Action::Parse"]}
{"id": "C16", "title": "State text round trip", "statement": "Rebuilding a State from its set of strings gives a State equal to the original, for every State whose propositions mention only declared objects.", "quantifier": "every State over declared objects", "why_tests_cant": "all states and hash functions", "anchors": ["src/state.cc: State(pddl, set<string>), Stringify", "src/proposition.cc: Proposition(pddl, string)"]}
{"id": "C17", "title": "Action-call parsing accepts exactly the well formed calls", "statement": "Parsing an action call succeeds exactly when the named action exists, every argument names a declared object, the argument count equals the parameter count, and every argument's type is a subtype of its parameter's type; otherwise an exception is raised.", "quantifier": "every domain, problem and call string", "why_tests_cant": "all inputs", "anchors": ["src/action.cc: Action::Parse, GetSymbol", "src/object.cc: Object(pddl, name), GetSymbol"]}
{"id": "C18", "title": "Formula evaluation is first-order semantics", "statement": "Evaluating a goal/precondition on a full State with given arguments returns the truth value given by closed-world first-order semantics: =, type predicates, atoms, and, or, not, and quantifiers ranging over all declared objects of the variable's type, with lexical scoping of variables.", "quantifier": "every formula of the supported fragment (atoms, =, type predicates, and, or, not, quantifiers binding at least one variable) in which no constant has the name of a variable in scope, every State, argument tuple and object list", "why_tests_cant": "formulas nest arbitrarily; evaluation works by in-place substitution into shared buffers", "anchors": ["src/formula.cc: CreateFormula, CreateProposition, CreateForall, CreateExists, CreateNegation, Formula::CreateApplicationFunction"]}
{"id": "C19", "title": "Evaluation does not depend on earlier evaluations", "statement": "The value of a formula on a State depends only on the set of propositions in the State and on the arguments, not on which evaluations were performed before with the same Formula object nor on how the State was built.", "quantifier": "every formula and every sequence of earlier calls", "why_tests_cant": "history dependence through the shared argument buffer", "anchors": ["src/formula.cc: Formula::CreateApplicationFunction"]}
{"id": "C20", "title": "Partial evaluation is sound", "statement": "If evaluating a formula on a PartialState gives a definite value then every full State that contains all its positive and none of its negative propositions gives the same value.", "quantifier": "every formula, PartialState, argument tuple and completion", "why_tests_cant": "quantifies over all completions of a partial state", "anchors": ["src/formula.cc: CreateNegation<PartialState>, Formula::operator()(PartialState)", "src/state.cc: PartialState::contains, does_not_contain"]}
{"id": "C21", "title": "Partial evaluation is monotone and exact on complete information", "statement": "Adding consistent information to a PartialState never changes a definite formula value; if every proposition relevant to the formula is known, the value is definite.", "quantifier": "every formula and every pair of PartialStates ordered by information", "why_tests_cant": "all pairs of states", "anchors": ["src/formula.cc: Formula::operator()(PartialState)"]}
{"id": "C22", "title": "Plain effects", "statement": "Applying an action whose effects are plain add and delete literals (no axioms) yields exactly (S union Add) minus Del for the substituted literals.  (Standard PDDL says (S minus Del) union Add; the two agree exactly when no added proposition is also deleted.)", "quantifier": "every State, action with plain effects and argument tuple", "why_tests_cant": "all states, effects and argument aliasing patterns", "anchors": ["src/action.cc: CreateAdd, CreateDel, CreateEffectsFunction, Action::Apply"]}
{"id": "C23", "title": "Frame property", "statement": "Applying an action (with forall and conditional effects, no axioms triggered) changes the truth value only of propositions that are instances of its effect literals; every other proposition is untouched.", "quantifier": "every State, effect tree, argument tuple and proposition", "why_tests_cant": "all propositions not mentioned", "anchors": ["src/action.cc: CreateEffectsFunction, CreateForall, CreateCond"]}
{"id": "C24", "title": "Unchanged means unchanged", "statement": "If applying an action or axiom reports that nothing changed then the State is the very same set of propositions as before (for full and partial states, with triggered axioms).", "quantifier": "every State, action, axioms and arguments", "why_tests_cant": "all inputs, arbitrary cascades", "anchors": ["src/action.cc: Action::Apply, CreateAdd, CreateDel", "include/symbolic/action.h: Apply"]}
{"id": "C25", "title": "Universal effects", "statement": "A forall effect applies its body to every tuple of declared objects of the quantified types: afterwards each added instance is present and each deleted instance absent.", "quantifier": "every object list, types and State", "why_tests_cant": "all domains", "anchors": ["src/action.cc: CreateForall"]}
{"id": "C26", "title": "Conditional effects use the state before the action", "statement": "Conditions of conditional effects are evaluated in the state before the action, as PDDL prescribes.", "quantifier": "every State and action", "why_tests_cant": "order of evaluation against simultaneous semantics for all effect sets", "anchors": ["src/action.cc: CreateCond, CreateEffectsFunction"]}
{"id": "C27", "title": "Partial application is sound", "statement": "If a PartialState describes a full State, then applying an action to both gives a PartialState describing the resulting full State.", "quantifier": "every action, PartialState and completion", "why_tests_cant": "quantifies over all completions", "anchors": ["src/action.cc: Action::Apply(PartialState), CreateCond", "src/state.cc: PartialState::insert, erase"]}
{"id": "C28", "title": "Cascading axioms use the triggering arguments", "statement": "When an effect changes a proposition matching an axiom context, the axiom's effects are applied with its parameters bound to the arguments of that proposition, recursively, as if by substitution.", "quantifier": "every set of axioms, effect, arguments and state", "why_tests_cant": "argument vectors are shared mutable buffers, so correctness depends on the nesting of the cascade", "anchors": ["src/axiom.cc: Axiom::CreateApplicationFunction", "src/action.cc: CreateAdd, CreateDel"]}
{"id": "C29", "title": "ConsistentState returns a valid state", "statement": "If ConsistentState returns, then the State it returns passes IsValidState.", "quantifier": "every State and axiom set", "why_tests_cant": "fixpoint over all states", "anchors": ["src/pddl.cc: Pddl::ConsistentState(State), IsValidState", "src/axiom.cc: Axiom::Apply, IsConsistent"]}
{"id": "C30", "title": "ConsistentState is a closure", "statement": "ConsistentState leaves a State alone exactly when IsValidState accepts it; in particular it is idempotent.", "quantifier": "every State and axiom set", "why_tests_cant": "fixpoint over all states", "anchors": ["src/pddl.cc: Pddl::ConsistentState(State), IsValidState", "src/axiom.cc: Axiom::Apply, IsConsistent"]}
{"id": "C31", "title": "Rejection of partial states is sound", "statement": "If IsValidState rejects a PartialState then no full State that completes it is accepted by IsValidState.", "quantifier": "every PartialState, every completion", "why_tests_cant": "quantifies over all completions", "anchors": ["src/axiom.cc: Axiom::IsConsistent(PartialState)", "src/pddl.cc: IsValidState(PartialState)"]}
{"id": "C32", "title": "ConsistentState of partial states only adds information", "statement": "If ConsistentState on a PartialState returns, every proposition known before is still known with the same value, unless a cascaded axiom overrode it, and the result is consistent and stable.", "quantifier": "every PartialState and axiom set", "why_tests_cant": "fixpoint with a round limit", "anchors": ["src/pddl.cc: Pddl::ConsistentState(PartialState)"]}
{"id": "C33", "title": "Derived predicates hold exactly when their body holds", "statement": "After the derived-predicate update returns, for every derived predicate and every well typed argument tuple the atom is in the State if and only if the body evaluates to true in that State.", "quantifier": "every State and set of derived predicates with at least one parameter", "why_tests_cant": "simultaneous fixpoint over all rules and tuples", "anchors": ["src/derived_predicate.cc: DerivedPredicate::Apply", "src/pddl.cc: NextState"]}
{"id": "C34", "title": "Derived-predicate update is idempotent and local", "statement": "The derived-predicate update does not change any proposition that is not a derived atom, and running it twice is the same as running it once.", "quantifier": "every State and rule set", "why_tests_cant": "all states", "anchors": ["src/derived_predicate.cc: DerivedPredicate::Apply"]}
{"id": "C35", "title": "Derived-predicate update terminates for non-recursive rules", "statement": "If no derived predicate is mentioned in a rule body and each has a single rule the update always terminates.  (With several rules for one head, or a rule negating its own head, it can run forever.)", "quantifier": "every State and rule set", "why_tests_cant": "termination for all inputs", "anchors": ["src/derived_predicate.cc: DerivedPredicate::Apply"]}
{"id": "C36", "title": "Proposition numbering is a bijection", "statement": "For predicates with at least one parameter and distinct names, the state index numbers exactly the well typed ground propositions 0..size-1: get_proposition and get_proposition_index are mutually inverse.", "quantifier": "every predicate list and object list", "why_tests_cant": "mixed-radix numbering plus binary search over cumulative sizes, all shapes", "anchors": ["src/state.cc: StateIndex::GetProposition, GetPropositionIndex, CreatePredicateIndexMap"]}
{"id": "C37", "title": "State vectors round trip", "statement": "Converting a State of well typed propositions (positive arity) to a boolean vector and back gives an equal State, and converting a boolean vector to a State and back gives the same vector.", "quantifier": "every State and every vector of the right length", "why_tests_cant": "all states", "anchors": ["src/state.cc: StateIndex::GetIndexedState, GetState"]}
{"id": "C38", "title": "Index caching is invisible", "statement": "With caching enabled, every sequence of index queries returns the same answers as without caching.", "quantifier": "every sequence of queries", "why_tests_cant": "history dependence through the caches", "anchors": ["src/state.cc: StateIndex::GetProposition, GetPropositionIndex, cache_propositions_, cache_idx_props_"]}
{"id": "C39", "title": "Sequencing", "statement": "ApplyActions on a sequence equals applying NextState for each call in order, and splits over concatenation of sequences.", "quantifier": "every State and sequence of action calls", "why_tests_cant": "all sequences", "anchors": ["src/pddl.cc: Pddl::ApplyActions, NextState"]}
{"id": "C40", "title": "Valid tuple", "statement": "IsValidTuple(s,a,s') is true exactly when a is a valid action in s and executing it yields a State with the same propositions as s'.", "quantifier": "every pair of States and call", "why_tests_cant": "all states, equality of differently built states", "anchors": ["src/pddl.cc: Pddl::IsValidTuple"]}
{"id": "C41", "title": "Valid plan", "statement": "IsValidPlan is true exactly when, starting from the initial state, each call's precondition holds in the state produced by the previous calls and the goal holds at the end.", "quantifier": "every sequence of calls", "why_tests_cant": "all sequences", "anchors": ["src/pddl.cc: Pddl::IsValidPlan"]}
{"id": "C42", "title": "Listed actions are exactly the applicable ones", "statement": "ListValidActions returns, for actions with at least one parameter, exactly the calls on declared well typed objects whose precondition holds; each listed call parses and is accepted by IsValidAction.", "quantifier": "every State, domain and problem", "why_tests_cant": "all states and domains", "anchors": ["src/pddl.cc: Pddl::ListValidArguments, ListValidActions, IsValidAction"]}
{"id": "C43", "title": "Planner successors", "statement": "The children of a search node are exactly the results of the applicable actions, in declaration and argument order, except those whose State equals that of the node or one of its ancestors; depth increases by one.", "quantifier": "every node, domain and problem", "why_tests_cant": "all states; two-level resumable iterator", "anchors": ["src/planning/planner.cc: Planner::Node::iterator, begin, operator++"]}
{"id": "C44", "title": "BFS plans are correct", "statement": "Every plan yielded by breadth-first search starts at the root, each step is a child of the previous node, it ends in a goal node, has no earlier goal node, and has at most max_depth steps.", "quantifier": "every search graph, root, depth bound and timeout behaviour", "why_tests_cant": "all graphs and executions", "anchors": ["include/symbolic/planning/breadth_first_search.h: BreadthFirstSearch::iterator"]}
{"id": "C45", "title": "BFS is complete", "statement": "Without a timeout every path from the root with at most max_depth steps whose only goal node is its last node is yielded, exactly once.", "quantifier": "every finitely branching search graph, root and depth bound", "why_tests_cant": "all graphs and executions", "anchors": ["include/symbolic/planning/breadth_first_search.h: BreadthFirstSearch::iterator::operator++"]}
{"id": "C46", "title": "BFS yields shortest plans first", "statement": "Plans are yielded in order of non-decreasing length; the first is a shortest plan.", "quantifier": "every search graph", "why_tests_cant": "all graphs", "anchors": ["include/symbolic/planning/breadth_first_search.h: BreadthFirstSearch::iterator::operator++"]}
{"id": "C47", "title": "BFS terminates; timeouts only truncate", "statement": "With a depth bound the search ends after finitely many steps, and under any timeout behaviour the plans yielded are a prefix of those yielded without timeout.", "quantifier": "every finitely branching graph and every timing", "why_tests_cant": "all schedules of the clock", "anchors": ["include/symbolic/planning/breadth_first_search.h: BreadthFirstSearch::iterator::operator++, IsTimeout"]}
{"id": "C48", "title": "Plans never revisit a state", "statement": "No two nodes of a plan found by the planner have the same State.", "quantifier": "every domain, problem, plan", "why_tests_cant": "all plans", "anchors": ["src/planning/planner.cc: Node::Node, Node::iterator::operator++"]}
{"id": "C49", "title": "Planner plans are valid plans", "statement": "The action calls of every plan found by breadth-first search from the problem's initial state pass IsValidPlan.", "quantifier": "every domain, problem and plan", "why_tests_cant": "connects search, text printing, parsing and execution for all inputs", "anchors": ["src/planning/planner.cc", "src/pddl.cc: IsValidPlan", "include/symbolic/planning/breadth_first_search.h"]}
{"id": "C50", "title": "DFS plans are correct and complete", "statement": "Every plan yielded by depth-first search is a path from the root to its first goal node within max_depth, and every such path is yielded.", "quantifier": "every search graph", "why_tests_cant": "all graphs", "anchors": ["include/symbolic/planning/depth_first_search.h"]}
{"id": "C51", "title": "A* plans are correct and complete", "statement": "Every plan yielded by A* is a path from the root to its first goal node within max_depth, whatever the priority function and tie breaking, and every such path is yielded.", "quantifier": "every graph, comparator and tie breaking", "why_tests_cant": "all graphs and queue orders", "anchors": ["include/symbolic/planning/a_star.h"]}
{"id": "C52", "title": "Normal form is equivalent to the formula", "statement": "The disjunctive normal form computed for a formula is satisfied by exactly the same States as the formula, and no normal form is returned exactly when the formula is unsatisfiable by simplification.", "quantifier": "every formula and State", "why_tests_cant": "all formulas and states", "anchors": ["src/normal_form.cc: DisjunctiveFormula::Create, Conjoin, Disjoin, Negate, Simplify"]}
{"id": "C53", "title": "Normal-form simplification preserves meaning", "statement": "Dropping contradictory conjunctions, absorbing subsumed conjunctions and removing duplicates does not change the set of satisfying States.", "quantifier": "every list of conjunctions", "why_tests_cant": "all inputs", "anchors": ["src/normal_form.cc: Simplify, TryInsertSubset, SortUnique, Evaluate"]}
{"id": "C54", "title": "Normal forms are irredundant", "statement": "In a simplified normal form no conjunction is implied by (contains all literals of) another one, and conjunctions are sorted without duplicates.", "quantifier": "every list of conjunctions", "why_tests_cant": "all inputs", "anchors": ["src/normal_form.cc: Simplify, TryInsertSubset, IsSubset, SortUnique"]}
{"id": "C55", "title": "Added objects become usable", "statement": "After AddObject the new object is found by name and appears among the arguments enumerated for parameters of its type.", "quantifier": "every domain, name and type", "why_tests_cant": "all inputs", "anchors": ["src/pddl.cc: Pddl::AddObject"]}
{"id": "C56", "title": "Removed objects disappear", "statement": "After RemoveObject the object is neither found by name nor enumerated, and using the Pddl stays well defined.", "quantifier": "every domain and name", "why_tests_cant": "dangling references are not observable by a passing test", "anchors": ["src/pddl.cc: Pddl::RemoveObject"]}
{"id": "C57", "title": "Parameterless operators are treated like any other", "statement": "Actions, predicates and derived predicates without parameters are listed, planned with, indexed and updated like those with parameters.", "quantifier": "every domain with a parameterless operator", "why_tests_cant": "boundary case of every enumeration", "anchors": ["include/symbolic/utils/combination_generator.h: size", "src/pddl.cc: ListValidActions", "src/derived_predicate.cc: Apply", "src/state.cc: StateIndex"]}
{"id": "C58", "title": "Problem text is well formed", "statement": "The text printed by the Python problem builder has balanced parentheses for all inputs with balanced pieces, and adding an initial proposition in call syntax prints the same proposition in PDDL syntax.", "quantifier": "all names and formulas built with the combinators", "why_tests_cant": "unbounded strings", "anchors": ["symbolic/problem.py"]}
{"id": "C59", "title": "Normal form of effects is the postcondition", "statement": "The disjunctive normal form computed for the effects of an action is satisfied by exactly the States in which all added propositions hold, no deleted proposition holds and every conditional effect whose condition holds has its postcondition, for all instances of quantified effects.", "quantifier": "every effect and State", "why_tests_cant": "all effects and states", "anchors": ["src/normal_form.cc: DisjunctiveFormula::Create(effect_lists), NormalizePostconditions"]}
{"id": "C60", "title": "PDDL text of propositions", "statement": "Proposition::to_pddl prints an opening parenthesis, the name and the arguments in order separated by blanks, and a closing parenthesis; two propositions with ordinary names have the same text exactly when they are the same atom.", "quantifier": "every proposition whose names contain no separators", "why_tests_cant": "names and numbers of arguments are unbounded; tests see a few", "anchors": ["src/proposition.cc: PropositionBase::to_pddl"]}
{"id": "C61", "title": "Initial state", "statement": "A new Pddl has as initial state exactly the facts of the :init section; with apply_axioms the initial state is valid, and it is the :init section itself if that was already valid.", "quantifier": "every domain and problem", "why_tests_cant": "domains, problems and the number of rounds of the axioms are unbounded", "anchors": ["src/pddl.cc: Pddl::Pddl, GetInitialState, ConsistentState"]}
{"id": "C62", "title": "Breadth-first search finds a shortest valid plan", "statement": "If a sequence of calls of actions with parameters passes IsValidPlan and is not longer than the maximum depth, breadth-first search without timeout from the valid initial state yields plans, all of which pass IsValidPlan, and the first is at most as long as that sequence.", "quantifier": "every domain, problem, depth and sequence of calls", "why_tests_cant": "compares with all sequences of calls; pruning of repeated states must not lose shortest plans", "anchors": ["src/planning/planner.cc", "include/symbolic/planning/breadth_first_search.h", "src/pddl.cc: IsValidPlan"]}
{"id": "C63", "title": "State index from Python", "statement": "In Python, get_proposition(i) for -size <= i < size prints the proposition numbered i, counted from the end if negative, and get_proposition_index and get_indexed_state accept the printed text and agree with the C++ functions.", "quantifier": "every predicate list, object list, number and text", "why_tests_cant": "all numberings and texts; a null pointer may go unnoticed as long as nothing dereferences it", "anchors": ["src/python/symbolic.cc: StateIndex", "src/state.cc: StateIndex::StateIndex", "src/predicate.cc: Predicate::Predicate"]}
{"id": "C64", "title": "Normalized conditions and goals", "statement": "A State satisfies NormalizePreconditions of a call exactly if IsValidAction accepts the call, and NormalizeGoal exactly if the goal test succeeds; NextState reaches a State that satisfies NormalizePostconditions; NormalizeConditions is the pair of both. With apply_axioms the conjunctions are consistent, closed under the axioms, and in valid States still hold exactly where the original did; a condition that contradicts the axioms yields no normal form.", "quantifier": "every domain, call and State", "why_tests_cant": "compares two evaluations of every condition in every State; axioms may cascade", "anchors": ["src/normal_form.cc: NormalizeConditions, NormalizePreconditions, NormalizePostconditions, NormalizeGoal", "src/pddl.cc: ConsistentState"]}
{"id": "C65", "title": "Sets of strings as states in Python", "statement": "The functions of pysymbolic.Pddl on sets of strings return sets that can be passed on to every other function, in any order of iteration: apply_actions on the result of apply_actions is one call with all actions; is_valid_tuple accepts the result of next_state exactly if is_valid_action accepts the call; is_valid_plan agrees with a loop over is_valid_action, next_state and is_goal_satisfied; derived_state and consistent_state are idempotent, and is_valid_state accepts what consistent_state returns; assigning initial_state and reading it back changes nothing. Sets with a malformed string are rejected by all of them.", "quantifier": "every domain, set of strings and sequence of calls", "why_tests_cant": "every composition of functions on every set, printed and parsed in between", "anchors": ["src/python/symbolic.cc: next_state, apply_actions, derived_state, consistent_state, is_valid_action, is_valid_state, is_valid_tuple, is_valid_plan, initial_state", "src/state.cc: Stringify, ParseState"]}
{"id": "C66", "title": "Checking partial states terminates", "statement": "IsValidState on a PartialState terminates, after at most one pass more than there are unknown atoms that effects of axioms speak about. ConsistentState on a PartialState returns or throws; with a valid completion it returns if at most 50 such atoms are unknown, and it may give up if there are 51.", "quantifier": "every PartialState and axiom set", "why_tests_cant": "a while loop without a limit", "anchors": ["src/axiom.cc: Axiom::IsConsistent(PartialState)", "src/pddl.cc: Pddl::ConsistentState(PartialState), IsValidState(PartialState)"]}
{"id": "C67", "title": "Text of formulas", "statement": "The text of a Formula is a PDDL expression with balanced parentheses exactly if the formula has no quantifiers. Then it is the expression of the formula, except that variables are written like constants; it is exactly that expression if the formula is ground. Two quantifier-free formulas over objects and variables with different names have the same text exactly if they are the same formula. With quantifiers, formulas with different truth values may have the same text.", "quantifier": "every formula, list of parameters and object map", "why_tests_cant": "all nestings of formulas and all pairs of formulas", "anchors": ["src/formula.cc: CreateFormula, Formula::Formula", "include/symbolic/formula.h: to_string"]}
{"id": "C68", "title": "Text of states, normal forms and nodes", "statement": "A State prints as the strings of its propositions in increasing order, independently of how it was built. Two States print the same text exactly if they are equal, and so do two PartialStates, two disjunctive or conjunctive formulas (up to equality of their terms in order) and two nodes of the search (depth, action and State).", "quantifier": "all states, normal forms and nodes with names without blanks, commas and parentheses, every hash function", "why_tests_cant": "all pairs of states and all histories", "anchors": ["src/state.cc: operator<<", "src/normal_form.cc: operator<<", "src/planning/planner.cc: operator<<"]}
{"id": "C69", "title": "Constructing axioms", "statement": "Constructing an axiom whose context is a literal and whose effect is a list of literals writes the two normal forms into its text, and is undefined (an empty std::optional is dereferenced) exactly if an atom is both added and deleted.", "quantifier": "every axiom of this form", "why_tests_cant": "all axioms; undefined behaviour need not show", "anchors": ["src/axiom.cc: StringifyFormula, Axiom::Axiom, operator<<"]}
{"id": "C70", "title": "Stepping through the children of a node", "statement": "Stepping an iterator over the children of a planner node with ++ and -- behaves as a position in one fixed list of children: after any steps from begin() or end() that stay within the list, the iterator shows the child at that position, the same node each time it comes back, and equals end() exactly after the last child. The list is the one a forward loop visits, whatever was called before.", "quantifier": "every domain and node, every sequence of ++ and --, every hash function and history of calls", "why_tests_cant": "all domains and all sequences of steps; the backward steps have no test at all", "anchors": ["src/planning/planner.cc: Planner::Node::iterator::operator++, operator--, operator==, begin, end"]}
{"id": "C71", "title": "Plans from Python", "statement": "The Python iterator over a breadth-first search gives the plans the C++ loop gives: every call of next() on a search or on a copy made by iter() returns the next plan of that object, independently of all other searches and copies, then raises StopIteration, and keeps raising it; a timeout may only end the sequence early.", "quantifier": "every graph, every number of searches and copies, every interleaving of calls, every clock", "why_tests_cant": "all interleavings of calls on any number of iterators over all graphs; there is no test of the Python iterator", "anchors": ["src/python/symbolic.cc: struct BreadthFirstSearch, __iter__, __next__", "include/symbolic/planning/breadth_first_search.h: BreadthFirstSearch::iterator"]}
{"id": "C72", "title": "Sorted vectors", "statement": "The sorted vectors under every State stay sorted: no sequence of calls fails an assert, reads outside a vector or divides by zero; a binary search finds the place of an element with at most log2 n + 1 comparisons. A State compiled as one sorted vector instead of a hash set contains, returns, counts and compares equal exactly as the hash set does, also when built from a list with repetitions.", "quantifier": "every hash function, every list, every sequence of inserts and erases, every correct std::sort", "why_tests_cant": "all call sequences and all vectors; the variant without hash set is not compiled at all", "anchors": ["include/symbolic/utils/unique_vector.h: UniqueVector, contains, insert, erase", "include/symbolic/utils/hash_set.h: HashSet, GetBucket, Rehash", "include/symbolic/state.h: class State without SYMBOLIC_STATE_USE_SET"]}
{"id": "C73", "title": "Loading, printing and pickling a Pddl", "statement": "The problem argument of a Pddl is read as PDDL text exactly if its last character other than blanks is a closing parenthesis, and as a file name otherwise; text printed by problem.py is always read as text. A Pddl with a problem is that of the parsed domain and problem. One made from a domain alone acts like one with no further objects and an empty initial state, whatever the goal, and accepts no plan. Pickling gives back the same Pddl, and so does evaluating what repr prints.", "quantifier": "every parser and file contents, every pair of arguments, every sequence of changes before pickling, every hash function", "why_tests_cant": "all argument strings and all domains and problems; copies that silently lose a setting behave alike on most inputs", "anchors": ["src/pddl.cc: ParsePddl, Pddl::Pddl, AddObject, RemoveObject", "include/symbolic/pddl.h: set_initial_state", "src/python/symbolic.cc: Pddl __repr__ and pickle"]}
{"id": "C74", "title": "The searches find every direct plan exactly once", "statement": "Call a sequence of calls a direct plan if each call is applicable where it is reached, the goal holds at the end and not before, and no state occurs twice. From the state the planner starts with, breadth-first search yields exactly the direct plans of actions with parameters within the maximal depth, each once, shorter ones first; depth-first search and A* yield them without repetition, except at most one. Direct plans pass IsValidPlan, and for every valid plan there is a direct one that is not longer.", "quantifier": "every domain of the supported fragment, every initial state, depth, history of earlier calls, priorities of A*, hash function", "why_tests_cant": "all domains and depths; a missing or repeated plan among many is not noticed", "anchors": ["include/symbolic/planning/breadth_first_search.h: operator++", "include/symbolic/planning/depth_first_search.h: operator++", "include/symbolic/planning/a_star.h: operator++", "src/planning/planner.cc: Node::begin, iterator::operator++", "src/pddl.cc: IsValidPlan"]}
{"id": "C75", "title": "The command-line program lists exactly the direct plans", "statement": "apps/pddl accepts exactly the command lines with a domain, a problem and any number of --depth INT and --verbose in any order (the last depth counts, 5 if there is none); others end with an exception, and the usage is printed unless only a number is wrong. For a domain of the supported fragment it prints the arguments, what VAL reports, the direct plans within the depth each once, shorter ones first, and their number; a plan is printed as its calls in order, each with the state it leads to, and can be read from the text. --verbose adds the visits of breadth-first search, level by level, and changes nothing else.", "quantifier": "every command line, domain of the supported fragment, problem, clock, output of VAL, hash function", "why_tests_cant": "all command lines and domains; nothing tests the program", "anchors": ["apps/pddl.cc: ParseArgs", "apps/pddl.cc: main", "include/symbolic/planning/breadth_first_search.h: operator++"]}
{"id": "C76", "title": "Where the order of effects does not matter, plans are those of PDDL", "statement": "Read a domain as PDDL does: a call may be executed where its precondition holds, and leads to the atoms it adds and those it does not delete, all conditions being about the state before. If no effect triggers an axiom or is about = or a type, there are no derived predicates, and from the initial state on no enabled call adds and deletes the same atom or changes an atom its conditional effects ask for, then NextState gives exactly that set, IsValidPlan accepts exactly the PDDL solutions, and breadth-first search yields exactly the solutions without detours within the depth, the first being as short as any solution. Without either of the last two conditions IsValidPlan rejects a solution.", "quantifier": "every such domain, problem, plan, depth, history of earlier calls, hash function", "why_tests_cant": "all domains and plans, against a semantics that the library does not compute", "anchors": ["src/pddl.cc: NextState, IsValidPlan", "src/action.cc: Action::Apply, CreateForall, CreateAdd, CreateDel, CreateCond", "include/symbolic/planning/breadth_first_search.h: operator++"]}
{"id": "C77", "title": "The bundled domain and its problem", "statement": "Every problem over the types of resources/domain.pddl (objects with different names, at most 1289 of them, a supported goal) is loaded and is in the fragment in which plans are those of PDDL. IsValidAction accepts exactly the calls that are moves of the world described in words (pick something movable in the workspace while nothing is held; place what is held on another thing in the workspace; push another movable thing that rests on something in the workspace with what is held), and NextState makes the move. If at first at most one thing is held, it is in the workspace, movable and on nothing, and everything else movable is on exactly one other thing, this stays so after any valid actions, nothing leaves the workspace, and with the table and something movable in the workspace some action is always valid. For resources/problem.pddl no plan has fewer than five moves, exactly three have five, and breadth-first search to depth five yields exactly these with any hash function. Things can come to rest on each other in a circle.", "quantifier": "every problem of the domain, reachable state, sequence of moves, hash function", "why_tests_cant": "all problems and all sequences of moves; the plans of the bundled problem for every hash function", "anchors": ["resources/domain.pddl", "resources/problem.pddl", "tests/tests.cc: 162-296", "src/pddl.cc: Pddl::Pddl, IsValidAction, NextState", "include/symbolic/planning/breadth_first_search.h: operator++"]}
{"id": "C78", "title": "What a Pddl can be made of", "statement": "If the axioms consist of literals of ordinary predicates (with fewer than 2^31 instances), the constructor of Pddl is undefined if an axiom adds and deletes the same literal; otherwise it throws if some precondition, condition, derived predicate or the goal contains a formula of an unknown kind, fails an assertion if a literal of an effect and the context of an axiom with the same sign and predicate differ in the number of arguments, and else does nothing but make the initial state consistent. In particular domains of the supported fragment can be made into a Pddl unless an axiom contradicts itself. Whenever a Pddl was made, all its formulas can be compiled again for both kinds of states, every context is a literal, numbers of arguments agree, Actions can be created again without failure and all axioms have a text.", "quantifier": "every domain and problem, initial state, hash function", "why_tests_cant": "all domains and problems, including those that must be rejected; undefined behaviour and assertions compiled out", "anchors": ["src/pddl.cc: Pddl::Pddl, CreateActions, CreateAxioms, CreateDerivedPredicates", "src/action.cc: Action::Action, CreateEffectsFunction", "src/axiom.cc: Axiom::Axiom, StringifyFormula, CreateApplicationFunction", "src/formula.cc: Formula::Formula", "src/derived_predicate.cc: DerivedPredicate::DerivedPredicate"]}
{"id": "C79", "title": "What printing a Pddl shows", "statement": "Printing a Pddl gives a text if and only if every declared type has a parent, every symbol has a type and all formulas of actions are of a known kind; otherwise a null pointer is dereferenced or it throws. If a Pddl could be made of the domain it cannot throw. Whatever addresses are printed, the text determines the name, requirements, types with their parents, constants, predicates and actions of the domain with the names and types of all symbols and the structure of all formulas and effects, if names are non-empty and free of white space, commas, colons, parentheses and brackets. It determines nothing else: in particular not the problem, the derived predicates, and which actions are axioms. The text of a problem, which no function prints, has the same properties.", "quantifier": "every domain and problem, all addresses", "why_tests_cant": "all domains, nested formulas of any depth; the text contains addresses; no test prints a Pddl", "anchors": ["src/pddl.cc: operator<<(Pddl), operator<<(VAL::domain), operator<<(VAL::problem), PrintGoal, PrintEffects, PrintArgs"]}
{"id": "C80", "title": "Nodes and loops over their children in Python", "statement": "A Python program with any number of PlannerNodes, copies of them and loops over children, nested and interleaved in any way, sees nodes as values and each iterator as the list of successors of its node followed by StopIteration for ever, whatever the shared memo tables contain, if it does not use a child object after the loop it came from has ended, does not go on with a loop over the children of a child object after the outer iterator has moved on, and does not drop the Pddl. All children a loop returns are one and the same object; copies PlannerNode(child) keep their value. After the Pddl is gone loops and reads of non-empty States are undefined.", "quantifier": "every consistent domain, all nodes, every program over PlannerNode, iter, next and reads, every history of the memo tables", "why_tests_cant": "all interleavings of any number of iterators that refer to each other's current child; lifetime of objects", "anchors": ["src/python/symbolic.cc: PlannerNode, Planner", "include/symbolic/planning/planner.h: Planner::Node::iterator", "src/planning/planner.cc: begin, end, operator++"]}
{"id": "C81", "title": "Argument tuples and calls in Python", "statement": "A Python program with any number of ParameterGenerators, loops over them and indexed accesses, interleaved in any way, sees the well-typed tuples: a loop sees each once and then only StopIteration, len is their number, gen[i] (from the end for negative i, IndexError outside) gives a list that keeps its tuple. All lists from one loop share their objects and show the tuple the loop returned last. action.to_string(names) on a Pddl that was not moved gives a text if and only if all names are declared, and the text parses back to the action's name and the first objects with these names.", "quantifier": "all objects with well-formed types, all parameter lists with fewer than 2^31 tuples, every program over len, gen[i], iter, next and reads; all names", "why_tests_cant": "all interleavings of any number of iterators; aliasing of the objects in returned lists", "anchors": ["src/python/symbolic.cc: ParameterGenerator, Action, Predicate", "include/symbolic/utils/parameter_generator.h", "include/symbolic/utils/combination_generator.h: Iterator", "src/action.cc: to_string", "src/object.cc: ParseArguments"]}
{"id": "C82", "title": "Iterators over a StateIndex", "statement": "Iterators over StateIndexes that stay between begin() and end() are positions in the numbered list of ground propositions: moves, copies, differences and the six comparisons are those of positions, iterators of two indexes are different and in no order, *it and it[n] give the proposition at the position whatever was cached before. Loops upwards and downwards see every ground proposition once, in the order of the numbers and in the reversed order. A reference from *it shows what the iterator was dereferenced to last.", "quantifier": "all indexable declarations with fewer than 2^31 ground propositions, every program over any number of iterators and indexes, every history of the caches", "why_tests_cant": "all programs over any number of iterators; references into iterators; conversions between int, ptrdiff_t and size_t", "anchors": ["include/symbolic/state.h: StateIndex::iterator, begin, end", "src/state.cc: GetProposition"]}
{"id": "C83", "title": "Objects in Python while objects are added and removed", "statement": "In Python, an Object taken from pddl.objects (and its type) shows the declared object as long as nothing was added and neither it nor an object before it was removed since. The list of objects after any edits is the one add_object and remove_object describe, and none of its elements has a deleted symbol. After a removal, earlier Objects show what is at their position now; after an addition to a full vector all of them are gone. Removing all objects works backwards or by names read first; looping over pddl.objects and removing each is undefined for two objects or more.", "quantifier": "all programs of listings, edits and reads; all object lists, capacities and growth policies of the vector", "why_tests_cant": "all interleavings; dangling references often still show the old value; the growth of std::vector is not fixed", "anchors": ["src/python/symbolic.cc: Pddl.objects, add_object, remove_object, Object, ObjectType", "src/pddl.cc: AddObject, RemoveObject", "include/symbolic/pddl.h: objects, objects_"]}
{"id": "C84", "title": "Changing a State while looping over it", "statement": "A call of insert or erase that returns false leaves the State and all iterators as they are, so inserting the range of a State into itself changes nothing. After an erase that keeps the number of buckets, iterators at or behind the erased place in its bucket are one element further and the others where they were. Erasing the first proposition until the State is empty, or erasing in a loop over a copy, removes everything; erasing every proposition in a range-for loop over the State itself is undefined as soon as there are two, and asking for end() in every step either is undefined or leaves a proposition.", "quantifier": "all hash functions, all histories of the State", "why_tests_cant": "whether a loop goes wrong depends on hash values and the number of buckets; reading past a bucket often shows old values", "anchors": ["include/symbolic/utils/hash_set.h: begin, end, insert, erase, Rehash, iterator", "include/symbolic/state.h: State::insert, erase, begin, end"]}
{"id": "C85", "title": "PartialState::insert and erase given one of its own literals", "statement": "PartialState::insert given a reference to a literal in the same object's neg(), or erase given one in pos(), never moves that literal: the call is undefined (exactly when the table shrinks or the literal is the last of its bucket), or it returns 2, the literal is in neither set, and the next literal of the bucket is in both, so the PartialState is inconsistent. Given a reference into the other set (insert with a literal of pos(), erase with one of neg()) the call returns 0 and changes nothing.", "quantifier": "all hash functions, all histories of the PartialState, all literals in it", "why_tests_cant": "the outcome depends on hash values and on freed memory; often the old value can still be read and the call seems to work", "anchors": ["src/state.cc: PartialState::insert, PartialState::erase", "include/symbolic/utils/hash_set.h: erase, Rehash", "include/symbolic/utils/unique_vector.h: erase"]}
