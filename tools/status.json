{
 "C07": {
  "status": "proved",
  "note": "The refuted theorem shows the consistency hypothesis is needed: a PartialState constructed from overlapping sets reports 1 for a proposition already present."
 },
 "C11": {
  "status": "partial",
  "note": "Proved for moves that stay in [0,size), for any steps of ++ and -- within [begin, end] from begin(), and for reverse iteration over options with two or more elements. The refuted theorems show stale digits after jumping past the end and back, and default-constructed digits in reverse iteration, so the unrestricted statement is false of the code. What is shown after any moves among positions that are not negative, and in any reverse iteration, is proved exactly (C11_exact, C11_reverse_exact)."
 },
 "C18": {
  "status": "proved",
  "note": "Proved for the fragment named in the statement; the refuted theorems show why the two exclusions are needed (constant captured by a variable of the same name; quantifier without variables)."
 },
 "C24": {
  "status": "proved",
  "note": "The refuted theorem concerns the converse, which the property does not claim: a nonzero status may come with an unchanged state."
 },
 "C25": {
  "status": "partial",
  "note": "Proved when no instance is both added and deleted. With overlap the statement is false of the code: the result then depends on the order in which objects are declared (refuted theorem). What the code does with overlap is proved exactly: the last tuple of objects that mentions an atom decides, deletion last within a tuple (C25_last_word)."
 },
 "C26": {
  "status": "partial",
  "note": "False of the code in general (refuted theorem: a condition sees effects already applied). Proved when the conditions depend on nothing the action changes and nothing is both added and deleted; then the result is that of PDDL for arbitrary nesting of forall and conditional effects. What the code does in general is proved exactly for effects that trigger no axiom: execution in sequence, conditions seeing what was done before (C26_sequential)."
 },
 "C27": {
  "status": "partial",
  "note": "False of the code in general: an unknown condition is treated as false, and an axiom may fire on the partial state only (refuted theorems). Proved for unconditional effects, and for runs in which every condition met is known, when no axiom is triggered."
 },
 "C28": {
  "status": "partial",
  "note": "Proved for axioms that cannot trigger each other in a cycle and whose parameters each occur once in the context, for any contents of the shared argument vectors that earlier calls can leave; includes termination of the cascade. False for self-triggering axioms (refuted theorem: the shared vector is overwritten while being read)."
 },
 "C33": {
  "status": "proved",
  "note": "Proved for all rules with at least one parameter, recursive or not; without recursion the result is the unique model. The refuted theorem is about a stronger reading (least model) that fails for recursive rules."
 },
 "C35": {
  "status": "proved",
  "note": "Proved for rules without recursion (derived predicates may be mentioned in bodies of higher rank), and for positive recursion from states without derived atoms, where the result is the least model. The refuted theorems give the divergent cases the statement mentions and one more: positive recursion from a state with stale derived atoms."
 },
 "C29": {
  "status": "proved",
  "note": "Proved for every axiom set (no restriction), and additionally that the result satisfies the axioms read as implications. The refuted theorem shows that ConsistentState need not return, which the property does not claim."
 },
 "C30": {
  "status": "proved",
  "note": "Proved for every axiom set; IsValidState is characterised by the implications for axioms with parameters and always answers when cascades are acyclic. The refuted theorem shows that axioms without parameters are never checked."
 },
 "C31": {
  "status": "partial",
  "note": "Proved for well-typed axioms (a literal of an effect only denotes objects admitted by the axioms it triggers) without cyclic cascades, each parameter once in the context. Without the typing condition the statement is false of the code (refuted theorem). The converse (acceptance implies a valid completion) is false too."
 },
 "C32": {
  "status": "proved",
  "note": "Proved for every axiom set, with the exception the statement makes for cascades. Beyond it: with a valid completion nothing known is ever changed and everything added is true in all valid completions. The refuted theorem exhibits the exception."
 },
 "C52": {
  "status": "partial",
  "note": "Proved for formulas without trivially true or trivially false subformulas (nondegenerate) under or/not; the refuted theorems show that NormalizeDisjuncts drops true disjuncts and that an all-false disjunction or the negation of a true formula becomes the empty (true) normal form. For formulas without = and type predicates C52_exact says exactly what the normal form means, degenerate formulas included: true disjuncts do not count, a disjunction of which nothing counts is true, and so is the negation of true."
 },
 "C59": {
  "status": "partial",
  "note": "Proved when the conditions of conditional effects are nondegenerate in the sense of C52; the refuted theorem shows a trivially true condition. C59_exact gives the exact meaning without = and type predicates: an effect on a constant condition is asked for, one on a condition that merely always holds is ignored, and one that asks nothing demands that the condition does not hold. C59_throws says exactly when the function throws instead, which depends on the order of declarations (for arbitrary nesting of forall and conditional effects)."
 },
 "C15": {
  "status": "proved",
  "note": "Proved for all non-empty names without separators (PDDL has no empty names); the refuted theorem shows that an empty argument name would not survive."
 },
 "C53": {
  "status": "proved",
  "note": "Proved for all lists of conjunctions of literals over declared objects, with and without axiom checks, and for equations between variables; the refuted theorem shows that a type predicate of a variable is decided although assignments of the variable disagree."
 },
 "C50": {
  "status": "partial",
  "note": "Every yielded plan is correct (any graph, memory and use of the iterator). Completeness is false of the code: the plan found when the stack runs empty is lost (refuted theorem: the root is a goal). Proved: exactly the plans in lexicographic order, last child first, are yielded, minus the path along first children if it is a plan."
 },
 "C51": {
  "status": "partial",
  "note": "Every yielded plan is correct for any priorities. Completeness is false of the code: the plan found when the queue runs empty is lost (refuted theorem). Proved: all plans but at most one are yielded, each as often as it occurs."
 },
 "C42": {
  "status": "proved",
  "note": "Proved as stated, for actions with at least one parameter; the refuted theorem shows that valid actions without parameters are never listed (see C57)."
 },
 "C39": {
  "status": "proved",
  "note": "C39_fold and C39_split hold for every domain; C39_meaning says what the result is for domains of the supported fragment (good_domain)."
 },
 "C40": {
  "status": "proved",
  "note": "For domains of the supported fragment (good_domain), for States and for sets of strings."
 },
 "C41": {
  "status": "proved",
  "note": "For domains of the supported fragment (good_domain); calls that do not parse, or an effect the code rejects, make the code throw instead of returning false."
 },
 "C43": {
  "status": "partial",
  "note": "Proved for domains of the supported fragment with at least one action, for actions with parameters. The refuted theorems show that without any action begin() dereferences the end of the action list and that actions without parameters never give a child, so the unrestricted statement is false of the code."
 },
 "C48": {
  "status": "proved",
  "note": "For any domain, any of the three searches and any memory; equality of States is equality of their sets of atoms."
 },
 "C49": {
  "status": "partial",
  "note": "Proved for all three searches when the initial state is valid. The refuted theorem shows that otherwise plans may fail: the planner starts from ConsistentState of the initial state, IsValidPlan from the initial state itself."
 },
 "C62": {
  "status": "proved",
  "note": "For the supported fragment without effects on = or types. The refuted theorem shows that a plan with an action without parameters can be missed, which the statement excludes."
 },
 "C36": {
  "status": "proved",
  "note": "Proved for both settings of the cache, after any earlier queries, for predicates with parameters, distinct names and counts that fit the machine types; also the order of the numbering, iteration, and what happens to everything else. The refuted theorems concern cases outside the statement: predicates without parameters share numbers, and no predicates at all is undefined."
 },
 "C37": {
  "status": "proved",
  "note": "Both round trips, after any earlier queries, and what each bit means. The refuted theorems show why positive arity is needed."
 },
 "C38": {
  "status": "proved",
  "note": "Every sequence of queries (lookups, conversions, iteration) on any predicate list, for propositions whose text is unambiguous, which includes all that can be parsed; the refuted theorem shows a confusion for an argument named 'a, b'."
 },
 "C63": {
  "status": "partial",
  "note": "The numbers are proved; the functions that read text are undefined for every index (refuted theorems), because Predicate leaves the pddl pointer of its base class null."
 },
 "C55": {
  "status": "partial",
  "note": "Found by name with the right type, listed by objects(), and nothing else changes: proved. That it is enumerated is false (refuted theorem): object_map_ and the parameter generators are never updated, so no added object is ever enumerated, whatever edits are made. In a domain without :types the call is undefined."
 },
 "C56": {
  "status": "partial",
  "note": "Found by name and listed exactly when added and not removed since, over any sequence of edits that does not remove constants of the domain; everything stays defined when only added objects are removed. For objects of the problem file the claim is false (refuted theorems): they are still enumerated and their deleted symbols are read; removing a constant makes lookups by name undefined."
 },
 "C57": {
  "status": "partial",
  "note": "Proved: calls without arguments are validated and executed like others. The rest of the claim is false, with theorems for every domain: they are never listed, never tried by the planner, derived predicates without parameters never change and axioms without parameters are never checked; index numbers collide or fall outside the vector."
 },
 "C58": {
  "status": "proved",
  "note": "Balance for every problem whose pieces are balanced; call syntax and printed propositions are stored as the same atom in PDDL syntax; beyond that, formulas, objects and whole problems are read back as what was meant. The refuted theorems concern more than the statement: quantifiers are printed without the parentheses of the variable list, an object without a type listed before a typed one takes its type, blanks do not separate arguments as they do in C++, and set_initial_state adds to what is there."
 },
 "C64": {
  "status": "partial",
  "note": "Proved for conditions without trivially true or false subformulas (as C52, C59); NextState for domains without derived predicates and effects that trigger no axiom, change nothing a condition reads and do not contradict each other. With apply_axioms, one direction in general, both if axioms do not trigger each other. The last part of the claim is false: one disjunct that contradicts the axioms makes the functions throw (C64_throws_refuted). C64_exact and C64_goal_exact give the exact meaning for conditions without = and type predicates."
 },
 "C65": {
  "status": "proved",
  "note": "For the supported fragment (good_domain), whose names are words without blanks, commas and parentheses and whose effects are about declared objects (text_domain); the parser of VAL ensures the latter."
 },
 "C66": {
  "status": "proved",
  "note": "For axioms with parameters without cyclic cascades (wf_axiom, good_axiom, ranked); that a valid completion guarantees an answer also needs typed_axiom as in C31. The refuted theorem shows that the limit of 50 is sharp."
 },
 "C67": {
  "status": "proved",
  "note": "For names that are words and predicates not named like connectives (clean_goal); every formula that can be constructed. The refuted theorems show the last sentence and why the names have to be different."
 },
 "C68": {
  "status": "proved",
  "note": "The refuted theorem shows that names with commas are ambiguous."
 },
 "C69": {
  "status": "proved",
  "note": "For ordinary predicates (not = and not types); the refuted theorem shows a context with = that is undefined as well."
 },
 "C70": {
  "status": "partial",
  "note": "Forward steps proved for every good domain. Steps in both directions proved if every action has arguments to try and every parameter except first ones at least two objects; otherwise the claim is false (refuted theorems). Iterators compare equal only at the end."
 },
 "C71": {
  "status": "proved",
  "note": "For programs that free nothing while it is used. iter(x) is a copy and not x, and searches keep alive neither the planner nor the search they were copied from; freeing these leads to undefined behaviour (refuted theorems)."
 },
 "C72": {
  "status": "proved",
  "note": "The search is libstdc++'s loop. Not alike: < of the two kinds of State (refuted theorem) and the order of iteration. A moved-from set cannot be used at all (example)."
 },
 "C73": {
  "status": "partial",
  "note": "Pickling and repr keep only the two arguments: a copy loses apply_axioms=false, the initial state that was set and edited objects, and of a Pddl without a problem it is undefined (refuted theorems; the copy obtained is characterised in every case). VAL's parser is an arbitrary function; files do not change between calls. The actions of an unpickled Pddl point to the temporary it was moved from, which matters for Action::to_string only (C81_pointer_refuted)."
 },
 "C74": {
  "status": "proved",
  "note": "For domains of the supported fragment with at least one action whose effects are not about = or types (as C62). Actions without parameters are left out (C43_nullary_refuted)."
 },
 "C75": {
  "status": "proved",
  "note": "VAL's parser, its type checker and the clock are arbitrary; the domain assumptions are those of C74. Text printed before an exception inside a loop over children is not modelled."
 },
 "C76": {
  "status": "proved",
  "note": "For domains of the supported fragment. The conditions are needed: C76_clash_refuted, C76_reads_refuted."
 },
 "C77": {
  "status": "proved",
  "note": "The files are transcribed as VAL would read them. The assertions of tests.cc about them are examples with three hash functions. C77_circle_refuted: tidiness does not exclude circles."
 },
 "C78": {
  "status": "proved",
  "note": "Simple axioms only in the first part; what follows from success holds for all axioms. C78_contradiction_refuted: domains of the supported fragment need not be accepted."
 },
 "C79": {
  "status": "proved",
  "note": "Two natural expectations are false: printing a Pddl shows its problem (C79_problem_refuted; the domain is printed twice), and a domain without types can be printed (C79_untyped_refuted)."
 },
 "C80": {
  "status": "proved",
  "note": "Two natural expectations are false: list(node) holds the children (C80_list_refuted: it holds one object several times, which shows what was tried last and need not be a child), and a loop over the children of a child can be interleaved with the outer loop (C80_inner_refuted)."
 },
 "C81": {
  "status": "proved",
  "note": "Three natural expectations are false: list(gen) holds the tuples (C81_list_refuted: all its lists show the last tuple), gen.index inverts gen[i] (C81_index_refuted: it uses a null pointer for any non-empty list of names), and to_string works on Predicates and on the actions of an unpickled Pddl (C81_pointer_refuted: the pointer to the Pddl is null or points to a Pddl that is gone)."
 },
 "C82": {
  "status": "proved",
  "note": "Two things a random access iterator promises are false: reverse iteration (C82_reverse_refuted: std::reverse_iterator returns a reference into a temporary) and that references are to elements (C82_reference_refuted)."
 },
 "C83": {
  "status": "proved",
  "note": "The natural claim, that an Object stays what it was, is false (C83_removed_refuted, C83_added_refuted, C83_clear_refuted say exactly what happens); C83_values is the claim with the rule that makes it true. pybind11 is modelled by its documented behaviour."
 },
 "C84": {
  "status": "proved",
  "note": "The natural loop that erases what it visits is refuted for every State with two propositions or more and every hash function (C84_erase_refuted, C84_end_refuted); the two loops of C84_clear work. Variant of State without SYMBOLIC_STATE_USE_SET (a std::vector) is not covered."
 },
 "C85": {
  "status": "proved",
  "note": "The natural statement, that the literal moves to the other set, is refuted for every literal of every reachable PartialState (C85_insert_refuted, C85_erase_refuted). No caller in the repository passes such a reference. The overloads for Proposition&& are not covered."
 }
}