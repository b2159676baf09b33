# Design

Subject: `tmigimatsu/symbolic` (C++ PDDL state/planning library), source in /repo.
Method: a shallow functional model of the C++ (and Python) code in Coq 8.16.1,
standard library only, and theorems about it.  /repo is never built or run: the
only tie between model and code is that every definition of the model cites the
file and lines it transcribes.

## Layout (rocq/theories)

* `Model/*.v`  - definitions only, each with a comment citing file and lines.
* `Spec/*.v`   - small independent specifications (sets as predicates, cartesian
  products, first-order semantics, paths of a graph, PDDL expressions, ...).
* `Proofs/*.v` - lemmas, and the data used in examples.
* `Properties/*.v` - the theorems claimed in MANIFEST.json, each followed by
  `Print Assumptions`, with `Example`s showing that the hypotheses are met by
  concrete non-trivial data.

Names: `Cxx_...` belongs to property Cxx of properties.jsonl.  `..._refuted`:
the natural statement is false of the code; the theorem gives the witness.
`..._partial`: what is proved of a statement that does not hold, or is not
proved, in full.

Tools: `tools/manifest.py` (MANIFEST.json from the theorem names and
`tools/status.json`), `tools/design.py` (the per-property section below from
`tools/how.json`), `tools/seed.py` and `tools/seedlog.py` (mutation tests in a
scratch copy; results in `seeded/LOG.jsonl`).

## Trusted base

* The Coq 8.16.1 kernel, including `vm_compute` (used in examples and
  refutations).
* `Print Assumptions` answers "Closed under the global context" for every
  theorem in Properties/: no axioms, own or of the standard library, are used.
  (Libraries loaded along the way contain axioms, e.g. `Coq.ssr.ssrunder`;
  none of the theorems depends on them.)
* The reading of the C++ code, i.e. that the definitions in `Model/` say what
  the cited lines do, with the conventions and simplifications listed here.
* Contracts of library functions that are used without a model of their code:
  `std::sort`, `std::includes`,
  `std::priority_queue`, `std::unordered_map/set`, `std::stringstream >>`, the
  allocator, `std::hash<std::string>` (an arbitrary function), Eigen vectors,
  Python's `re`, `str.split`, `str.replace`, `str.join`.  (`std::lower_bound` and
  `std::unique` are modelled as in libstdc++, see C72.)

## Modelling conventions

* `outcome A` = `Ok a | Throw e | UB | AssertFail | OutOfFuel`.  C++ exceptions
  (by class, without message), undefined behaviour (out of range `operator[]`,
  null or dangling dereference, modulo 0), failed `assert` and non-termination
  are separate outcomes.  Asserts are on.
* Loops whose termination depends on data take fuel; theorems say what holds
  whenever the result is not `OutOfFuel`, and separate theorems give
  termination or divergence.
* `std::hash<std::string>` is an arbitrary function (`Class StdHash`), so all
  results hold for every hash function, colliding ones included.
* `size_t` and `int` are modelled with their wrap-around in hash computations,
  CombinationGenerator and StateIndex; elsewhere indices and sizes are `nat`.
* Objects are compared by name, as in the code; a symbol is a variable or a
  constant.  Types are the chain of ancestor names (acyclic hierarchies only, no
  `either` types).
* VAL (the external PDDL parser) is not modelled: a domain/problem is an
  abstract syntax tree as VAL would produce it (`Model/Syntax.v`).
* Buffers and argument vectors shared between closures are modelled by an
  explicit store, because re-entrancy makes them observable; theorems quantify
  over everything earlier calls can have left there.

## What is modelled

| source | model | not modelled |
|---|---|---|
| include/symbolic/utils/unique_vector.h, hash_set.h | HashSet.v, UniqueVector.v, StateLoop.v (iterators of HashSet across changes) | iterator invalidation of UniqueVector |
| include/symbolic/utils/combination_generator.h | CombinationGenerator.v | const/non-const duplicates of the iterator |
| src/utils/parameter_generator.cc, pddl.cc 145-155 | ParameterGenerator.v | - |
| object.h/.cc | Object.v, Text.v, Print.v | - |
| proposition.h/.cc | Proposition.v, Text.v | default-constructed propositions |
| state.h/.cc | State.v, StateIndex.v, IndexIter.v (iterator of StateIndex), PartialAlias.v (PartialState given its own literals), Print.v, UniqueVector.v (variant without SYMBOLIC_STATE_USE_SET) | destroying or moving a StateIndex while it has iterators |
| predicate.h/.cc | StateIndex.v, Print.v | - |
| formula.h/.cc | Formula.v, Print.v | - |
| action.h/.cc | Effects.v, Construct.v, Text.v | - |
| axiom.h/.cc | Effects.v, Consistency.v, Construct.v, Print.v | - |
| derived_predicate.h/.cc | Derived.v, Construct.v | - |
| normal_form.h/.cc | NormalForm.v, Normalize.v, Print.v | - |
| pddl.h/.cc | Construct.v, Pddl.v, Objects.v, Load.v (constructors around an arbitrary parser), Listing.v (printing) | VAL's parser and checker (ParsePddl, IsValid) |
| planning/planner.h/.cc | Planner.v, PlannerSteps.v, Print.v | what -- does before begin() |
| planning/breadth_first_search.h, depth_first_search.h, a_star.h | Search.v, App.v (output of verbose breadth-first search) | - |
| resources/domain.pddl, problem.pddl | Bundled.v (as VAL would read them) | comments |
| apps/pddl.cc | App.v | what is printed before an exception inside a loop over children |
| symbolic/problem.py | Problem.v | non-ASCII text |
| src/python/symbolic.cc | StateIndex.v (index functions), Python.v (functions on sets of strings), PySearch.v (iterator over plans), PyNode.v (nodes and loops over children), PyArgs.v (loops over argument tuples, to_string of calls), PyObjects.v (Objects across edits), Load.v (repr and pickling of Pddl) | the rest of the pybind11 glue; what next() leaves behind if the search throws |

Further simplifications:

* What calls that throw leave in States is not modelled (the result is just
  `Throw e`).  What they leave in the shared vectors is covered: theorems about
  all reachable vectors include those left by any number of single closure
  calls (`rs_call` in EffectSpec.v).
* Persistent closures of actions are keyed by the action's name.
* AddObject/RemoveObject: reads of deleted symbols are counted in lookups by
  name, in enumerations, calls and the initial state; not inside the evaluation
  of preconditions, effects and the goal, which may mention deleted constants.
* Clock: timeouts are an arbitrary oracle.  Threads are not modelled.
* Forming a null reference without using it is not counted as UB (StateIndex).
* PDDL text (C58): tokens are separated by white space and parentheses;
  comments are left out.

## Findings

Statements that are false of the code, with the theorem that shows it:

* Iterators of CombinationGenerator keep stale digits after walking past the
  end and back, and reverse iteration reads default elements
  (`C11_moves_refuted`, `C11_reverse_refuted`).
* A constant named like a variable is captured; a quantifier without variables
  is always evaluated as without instances (`C18_*_refuted`).
* Conditional effects see the effects already applied; a forall effect with
  overlapping literals depends on the order of declarations (`C26_refuted`,
  `C25_order_refuted`).
* On partial states unknown conditions count as false, and axioms may fire on
  the partial state only (`C27_*_refuted`).
* Self-triggering axioms read the argument vector while it is overwritten
  (`C28_aliasing_refuted`); ConsistentState need not end
  (`C29_diverges_refuted`); axioms without parameters are never checked
  (`C30_nullary_refuted`); cascades override known propositions and fire for
  ill-typed arguments (`C32_override_refuted`, `C31_untyped_refuted`).
* Derived predicates: negative recursion and several rules for one head may
  never end, recursion may keep stale facts (`C33_least_refuted`,
  `C35_*_refuted`).
* StateIndex: predicates without parameters collide or write out of range; no
  predicates is undefined; the Python functions on text use a null pointer
  (`C36_*_refuted`, `C37_*_refuted`, `C57_*_refuted`, `C63_*_refuted`).
* Iterators over a StateIndex are no random access iterators: reverse iteration
  reads a temporary that is gone, and references change when their iterator is
  read elsewhere (`C82_*_refuted`).
* Actions without parameters are never listed nor planned with
  (`C42_nullary_refuted`, `C43_nullary_refuted`, `C62_nullary_refuted`,
  `C57_*`); a planner without actions is undefined (`C43_empty_refuted`).
* Stepping back from the end of the children reads arguments that were never
  set, or finds children of actions without parameters that ++ never finds; an
  iterator does not equal its copy (`C70_*_refuted`).
* In Python, iter() of a search is a copy of it, so a loop takes nothing from
  the search; a search reads its planner, and a copy the search it was copied
  from, without keeping them alive (`C71_*_refuted`).
* In Python, list(node) holds one object several times, which shows the node
  tried last (not even a child, possibly); a loop over the children of a child
  goes on from another node when the outer loop moves (`C80_*_refuted`).
  Planners and nodes do not keep the Pddl alive (`C80_dropped`).
* In Python, all lists from one loop over a ParameterGenerator show its last
  tuple, so list(gen) holds one tuple several times; gen.index and
  Predicate.to_string follow a null pointer, Action.to_string a pointer to a Pddl
  that is gone if the Pddl was moved, as unpickling does (`C81_*_refuted`).
* A range-for loop over a State that erases what it visits is undefined for two
  propositions or more, for every hash function (`C84_erase_refuted`).  The
  repository has no such loop.
* `s.insert(*s.neg().begin())` and `s.erase(*s.pos().begin())` on a PartialState
  use their argument after the erase that invalidates it: undefined, or another
  literal ends up in both sets (`C85_*_refuted`).  No caller in the repository
  does this.
* In Python, an Object from pddl.objects becomes another object when one before
  it is removed, and dangles when the list of objects grows into a new buffer;
  looping over pddl.objects and removing each one is undefined for two objects or
  more (`C83_*_refuted`).
* The planner starts from ConsistentState of the initial state, IsValidPlan from
  the initial state itself (`C49_start_refuted`).
* DFS and A* lose the plan found by the last pop (`C50_complete_refuted`,
  `C51_complete_refuted`).
* Normal forms: trivially true or false subformulas and equalities are confused
  (`C52_*_refuted`, `C59_true_condition_refuted`; how exactly: `C52_exact`,
  `C59_exact`); the type predicate of a
  variable is decided without knowing the object (`C53_variable_type_refuted`);
  with apply_axioms one contradictory disjunct makes Normalize* throw
  (`C64_throws_refuted`).
* ConsistentState(PartialState) gives up after 50 iterations although there is a
  valid completion (`C66_limit_refuted`).
* AddObject does not update what is enumerated and is undefined without :types;
  RemoveObject leaves dangling objects (`C55_*_refuted`, `C56_*_refuted`).
* Python: quantifiers are printed without the parentheses of the variable list;
  untyped objects take the type of the next typed one; blanks separate arguments
  in C++ but not in Python; set_initial_state adds (`C58_*_refuted`).
* Quantifiers are missing in the text of formulas, which is never balanced then,
  and variables look like constants (`C67_*_refuted`).
* Constructing an axiom with contradictory effects, or with a context that is
  never true, dereferences an empty optional (`C69_axiom_text`,
  `C69_equality_refuted`), so that no Pddl can be made of such a domain although
  everything else proved of it would hold (`C78_contradiction_refuted`).
* Printing a Pddl prints its domain twice and not the problem, and follows a null
  pointer if there are no types (`C79_problem_refuted`, `C79_untyped_refuted`).
* Pickling and repr of a Pddl lose apply_axioms=false, a changed initial state
  and changed objects; repr of a Pddl made from text is not an expression
  (`C73_pickle_refuted`, `C73_changes_refuted`, `C73_repr_refuted`).
* A Pddl without a problem has no constants(); its pickle, an empty problem
  argument, AddObject and RemoveObject follow a null pointer
  (`C73_constants_refuted`, `C73_pickle_domain_refuted`, `C73_empty_refuted`,
  `C73_domain_only`).  Text followed by a comment is opened as a file
  (`C73_source`).
* The program pddl ignores whether the domain is valid, reads only the beginning
  of the depth, takes -1 for 2^64 - 1, does not print the usage if the depth is
  no number, follows a null pointer if the problem is an empty word, and announces
  a depth again after every plan (`C75_*_refuted`).
* Effects are applied one after another, so that IsValidPlan rejects PDDL
  solutions in which an action adds and deletes the same atom, or one conditional
  effect changes the condition of another (`C76_clash_refuted`,
  `C76_reads_refuted`).
* With resources/domain.pddl two things can come to rest on each other: pick and
  place do not ask whether something lies on what is picked
  (`C77_circle_refuted`).

## Per property

<!-- per property: begin -->

### C01 State is a mathematical set (proved)

*Modelled:* HashSet (buckets of sorted vectors, rehash on growth and shrinkage), State on top; std::hash arbitrary.  
*Proof:* Invariant `wf` over histories of calls; membership spec is a predicate on atoms.  
*Theorems:* `C01_membership`, `C01_return_value`

### C02 State size and iteration (proved)

*Modelled:* HashSet size, empty, iterators.  
*Proof:* Same invariant; traversal is the concatenation of buckets, shown duplicate-free and complete.  
*Theorems:* `C02_iteration`

### C03 State equality is history independent (proved)

*Modelled:* HashSet::operator==, bucket count after any history.  
*Proof:* The bucket count is a function of the size only (2^k-1 rule), each bucket is sorted, hence layout is canonical.  
*Theorems:* `C03_equality`, `C03_iteration_order`

### C04 Equal states have equal hashes (proved)

*Modelled:* std::hash<State> folding hash_combine over the traversal, on 64 bit words.  
*Proof:* Corollary of the canonical layout.  
*Theorems:* `C04_hash`

### C05 Borrowed and owned propositions are interchangeable (proved)

*Modelled:* PropositionRef with precomputed predicate hash (second code path).  
*Proof:* Equality of the two hash computations, then of the lookups.  
*Theorems:* `C05_borrowed`

### C06 State order is a strict total order compatible with equality (proved)

*Modelled:* operator< of Proposition, State, PartialState (lexicographic).  
*Proof:* Lemmas on lexicographic orders over lists and pairs.  
*Theorems:* `C06_proposition_order`, `C06_state_order`, `C06_partial_state_order`

### C07 PartialState keeps positive and negative sets disjoint (proved)

*Modelled:* PartialState::insert/erase and constructors.  
*Proof:* Invariant over histories; return codes by cases.  
*Remarks:* The refuted theorem shows the consistency hypothesis is needed: a PartialState constructed from overlapping sets reports 1 for a proposition already present.  
*Theorems:* `C07_disjoint`, `C07_disjoint_from_sets`, `C07_contents`, `C07_codes`, `C07_codes_inconsistent_refuted`

### C08 PartialState queries are three valued (proved)

*Modelled:* PartialState::contains/does_not_contain with the exception.  
*Proof:* Cases on the two sets.  
*Theorems:* `C08_queries`

### C09 Combination generator enumerates the cartesian product (proved)

*Modelled:* CombinationGenerator, its iterator (incremental digits), size with int/size_t conversions.  
*Proof:* Simulation of the iterator against positions, mixed-radix arithmetic.  
*Theorems:* `C09_enumerates`, `C09_product_members`, `C09_product_distinct`, `C09_product_count`, `C09_no_options`, `C09_empty_option`

### C10 find is the inverse of indexing (proved)

*Modelled:* CombinationGenerator::find and operator[].  
*Proof:* Mixed-radix arithmetic; options without repetition.  
*Theorems:* `C10_find`, `C10_inverse`

### C11 Iterator position is all that matters (partial)

*Modelled:* Iterator moves ++, --, +=, -=, also reverse iterators.  
*Proof:* Simulation; refuted where digits become stale. C11_exact follows the position at which each slot was last written.  
*Remarks:* Proved for moves that stay in [0,size), for any steps of ++ and -- within [begin, end] from begin(), and for reverse iteration over options with two or more elements. The refuted theorems show stale digits after jumping past the end and back, and default-constructed digits in reverse iteration, so the unrestricted statement is false of the code. What is shown after any moves among positions that are not negative, and in any reverse iteration, is proved exactly (C11_exact, C11_reverse_exact).  
*Theorems:* `C11_moves_partial`, `C11_reverse_partial`, `C11_steps_partial`, `C11_reverse_exact`, `C11_exact`, `C11_digits`, `C11_reverse_refuted`, `C11_moves_refuted`

### C12 Checked indexing (proved)

*Modelled:* at with negative indices, int arithmetic.  
*Proof:* Case analysis with explicit wrap-around.  
*Theorems:* `C12_at`

### C13 Argument generation covers exactly the well typed tuples (proved)

*Modelled:* CreateObjectTypeMap, ParameterGenerator.  
*Proof:* Induction on objects and the type chain; C09.  
*Theorems:* `C13_arguments`

### C14 Type tests agree (proved)

*Modelled:* Object::Type::IsSubtype, ListTypes, object map.  
*Proof:* Induction on the chain of parents.  
*Theorems:* `C14_types`, `C14_order`

### C15 Proposition and action-call text round trips (proved)

*Modelled:* to_string of calls, ParseHead, TokenizeArguments on byte strings.  
*Proof:* Round trip on a grammar of calls (`call_text`), which also describes arbitrary text.  
*Remarks:* Proved for all non-empty names without separators (PDDL has no empty names); the refuted theorem shows that an empty argument name would not survive.  
*Theorems:* `C15_round_trip`, `C15_injective`, `C15_any_text`, `C15_empty_name_refuted`

### C16 State text round trip (proved)

*Modelled:* State(pddl, strings), Stringify.  
*Proof:* C15 and set extensionality.  
*Theorems:* `C16_round_trip`, `C16_stringify`

### C17 Action-call parsing accepts exactly the well formed calls (proved)

*Modelled:* Action::Parse with its checks.  
*Proof:* Equivalence with `good_call`; classes of exceptions.  
*Theorems:* `C17_accepted`, `C17_rejected`, `C17_invalid_argument`, `C17_printed`

### C18 Formula evaluation is first-order semantics (proved)

*Modelled:* Formula compiled to closures with shared argument buffers.  
*Proof:* Equivalence with Tarski semantics (`holds`).  
*Remarks:* Proved for the fragment named in the statement; the refuted theorems show why the two exclusions are needed (constant captured by a variable of the same name; quantifier without variables).  
*Theorems:* `C18_semantics`, `C18_constant_capture_refuted`, `C18_empty_quantifier_refuted`

### C19 Evaluation does not depend on earlier evaluations (proved)

*Modelled:* The same buffers between evaluations (explicit store).  
*Proof:* The value is a function of atoms and arguments for every store content; also for every interleaving of closures.  
*Theorems:* `C19_history`, `C19_history_partial_state`, `C19_closures`, `C19_closures_partial_state`

### C20 Partial evaluation is sound (proved)

*Modelled:* Evaluation on PartialState (three-valued, exceptions caught in negation, and, or).  
*Proof:* Simulation against all completions.  
*Theorems:* `C20_sound`

### C21 Partial evaluation is monotone and exact on complete information (proved)

*Modelled:* As C20.  
*Proof:* Monotonicity by induction on the formula; relevance relation.  
*Theorems:* `C21_monotone`, `C21_definite`

### C22 Plain effects (proved)

*Modelled:* CreateAdd/CreateDel and the order of the lists in CreateEffectsFunction.  
*Proof:* Interpreter lemma for literal lists.  
*Theorems:* `C22_plain`, `C22_pddl`

### C23 Frame property (proved)

*Modelled:* Full effect interpreter.  
*Proof:* Induction on effect trees.  
*Theorems:* `C23_frame`

### C24 Unchanged means unchanged (proved)

*Modelled:* Status codes of effects, axioms, for both kinds of states.  
*Proof:* Induction on fuel and effect trees.  
*Remarks:* The refuted theorem concerns the converse, which the property does not claim: a nonzero status may come with an unchanged state.  
*Theorems:* `C24_unchanged`, `C24_unchanged_partial_state`, `C24_converse_refuted`

### C25 Universal effects (partial)

*Modelled:* CreateForall of effects.  
*Proof:* Interpreter lemma with the product of objects; exact sequential meaning.  
*Remarks:* Proved when no instance is both added and deleted. With overlap the statement is false of the code: the result then depends on the order in which objects are declared (refuted theorem). What the code does with overlap is proved exactly: the last tuple of objects that mentions an atom decides, deletion last within a tuple (C25_last_word).  
*Theorems:* `C25_forall_partial`, `C25_order_refuted`, `C25_last_word`

### C26 Conditional effects use the state before the action (partial)

*Modelled:* CreateCond.  
*Proof:* Independence argument; refuted in general; exact sequential meaning.  
*Remarks:* False of the code in general (refuted theorem: a condition sees effects already applied). Proved when the conditions depend on nothing the action changes and nothing is both added and deleted; then the result is that of PDDL for arbitrary nesting of forall and conditional effects. What the code does in general is proved exactly for effects that trigger no axiom: execution in sequence, conditions seeing what was done before (C26_sequential).  
*Theorems:* `C26_stable_conditions_partial`, `C26_refuted`, `C26_sequential`

### C27 Partial application is sound (partial)

*Modelled:* Effect interpreter on PartialState.  
*Proof:* Simulation; refuted in general.  
*Remarks:* False of the code in general: an unknown condition is treated as false, and an axiom may fire on the partial state only (refuted theorems). Proved for unconditional effects, and for runs in which every condition met is known, when no axiom is triggered.  
*Theorems:* `C27_known_conditions_partial`, `C27_unconditional`, `C27_unknown_condition_refuted`, `C27_axiom_refuted`

### C28 Cascading axioms use the triggering arguments (partial)

*Modelled:* Axiom::CreateApplicationFunction and shared argument vectors (explicit store).  
*Proof:* Refinement to a substitution semantics by induction on rank.  
*Remarks:* Proved for axioms that cannot trigger each other in a cycle and whose parameters each occur once in the context, for any contents of the shared argument vectors that earlier calls can leave; includes termination of the cascade. False for self-triggering axioms (refuted theorem: the shared vector is overwritten while being read).  
*Theorems:* `C28_substitution_partial`, `C28_substitution_partial_state`, `C28_aliasing_refuted`

### C29 ConsistentState returns a valid state (proved)

*Modelled:* Axiom::IsConsistent/Apply, Pddl::ConsistentState/IsValidState on States.  
*Proof:* Loop invariant.  
*Remarks:* Proved for every axiom set (no restriction), and additionally that the result satisfies the axioms read as implications. The refuted theorem shows that ConsistentState need not return, which the property does not claim.  
*Theorems:* `C29_valid`, `C29_meaning`, `C29_diverges_refuted`

### C30 ConsistentState is a closure (proved)

*Modelled:* As C29.  
*Proof:* Fixpoint argument; meaning of IsValidState as implications.  
*Remarks:* Proved for every axiom set; IsValidState is characterised by the implications for axioms with parameters and always answers when cascades are acyclic. The refuted theorem shows that axioms without parameters are never checked.  
*Theorems:* `C30_fixed`, `C30_returns`, `C30_idempotent`, `C30_meaning`, `C30_decides`, `C30_nullary_refuted`

### C31 Rejection of partial states is sound (partial)

*Modelled:* IsValidState on PartialStates.  
*Proof:* Simulation of the partial fixpoint inside any valid completion.  
*Remarks:* Proved for well-typed axioms (a literal of an effect only denotes objects admitted by the axioms it triggers) without cyclic cascades, each parameter once in the context. Without the typing condition the statement is false of the code (refuted theorem). The converse (acceptance implies a valid completion) is false too.  
*Theorems:* `C31_rejection_partial`, `C31_untyped_refuted`, `C31_accepts_refuted`

### C32 ConsistentState of partial states only adds information (proved)

*Modelled:* ConsistentState on PartialStates.  
*Proof:* Loop invariant.  
*Remarks:* Proved for every axiom set, with the exception the statement makes for cascades. Beyond it: with a valid completion nothing known is ever changed and everything added is true in all valid completions. The refuted theorem exhibits the exception.  
*Theorems:* `C32_stable`, `C32_known`, `C32_extends`, `C32_sound`, `C32_override_refuted`

### C33 Derived predicates hold exactly when their body holds (proved)

*Modelled:* DerivedPredicate::Apply and its loops.  
*Proof:* Fixpoint argument.  
*Remarks:* Proved for all rules with at least one parameter, recursive or not; without recursion the result is the unique model. The refuted theorem is about a stronger reading (least model) that fails for recursive rules.  
*Theorems:* `C33_fixpoint`, `C33_unique`, `C33_least_refuted`

### C34 Derived-predicate update is idempotent and local (proved)

*Modelled:* As C33.  
*Proof:* Frame lemma; fixpoint.  
*Theorems:* `C34_local`, `C34_idempotent`

### C35 Derived-predicate update terminates for non-recursive rules (proved)

*Modelled:* As C33, termination.  
*Proof:* Measures by rank; monotone iteration; divergence by induction on fuel.  
*Remarks:* Proved for rules without recursion (derived predicates may be mentioned in bodies of higher rank), and for positive recursion from states without derived atoms, where the result is the least model. The refuted theorems give the divergent cases the statement mentions and one more: positive recursion from a state with stale derived atoms.  
*Theorems:* `C35_terminates`, `C35_no_derived_in_bodies`, `C35_positive`, `C35_no_model_diverges`, `C35_negative_recursion_refuted`, `C35_two_rules_refuted`, `C35_recursion_refuted`

### C36 Proposition numbering is a bijection (proved)

*Modelled:* StateIndex: cumulative sums, predicate lookup, generators.  
*Proof:* Arithmetic of cumulative sums, C10, C13.  
*Remarks:* Proved for both settings of the cache, after any earlier queries, for predicates with parameters, distinct names and counts that fit the machine types; also the order of the numbering, iteration, and what happens to everything else. The refuted theorems concern cases outside the statement: predicates without parameters share numbers, and no predicates at all is undefined.  
*Theorems:* `C36_exists`, `C36_bijection`, `C36_iteration`, `C36_others`, `C36_nullary_refuted`, `C36_empty_refuted`

### C37 State vectors round trip (proved)

*Modelled:* GetState, GetIndexedState.  
*Proof:* C36.  
*Remarks:* Both round trips, after any earlier queries, and what each bit means. The refuted theorems show why positive arity is needed.  
*Theorems:* `C37_state`, `C37_vector`, `C37_nullary_refuted`, `C37_outside_refuted`

### C38 Index caching is invisible (proved)

*Modelled:* The caches of StateIndex.  
*Proof:* Cache invariant over sequences of queries.  
*Remarks:* Every sequence of queries (lookups, conversions, iteration) on any predicate list, for propositions whose text is unambiguous, which includes all that can be parsed; the refuted theorem shows a confusion for an argument named 'a, b'.  
*Theorems:* `C38_cache`, `C38_names_refuted`

### C39 Sequencing (proved)

*Modelled:* ApplyActions, NextState, Apply, DerivedState.  
*Proof:* Fold laws and C28/C33 for the meaning.  
*Remarks:* C39_fold and C39_split hold for every domain; C39_meaning says what the result is for domains of the supported fragment (good_domain).  
*Theorems:* `C39_fold`, `C39_split`, `C39_meaning`, `C39_history`

### C40 Valid tuple (proved)

*Modelled:* IsValidTuple, both overloads.  
*Proof:* C18, C39.  
*Remarks:* For domains of the supported fragment (good_domain), for States and for sets of strings.  
*Theorems:* `C40_tuple`, `C40_text`, `C40_malformed`

### C41 Valid plan (proved)

*Modelled:* IsValidPlan, IsGoalSatisfied.  
*Proof:* C18, C39.  
*Remarks:* For domains of the supported fragment (good_domain); calls that do not parse, or an effect the code rejects, make the code throw instead of returning false.  
*Theorems:* `C41_plan`, `C41_goal`

### C42 Listed actions are exactly the applicable ones (proved)

*Modelled:* ListValidActions, ListValidArguments.  
*Proof:* Filter of the enumerated tuples (C13), C18, C15.  
*Remarks:* Proved as stated, for actions with at least one parameter; the refuted theorem shows that valid actions without parameters are never listed (see C57).  
*Theorems:* `C42_order`, `C42_listed`, `C42_arguments`, `C42_accepted`, `C42_valid`, `C42_text`, `C42_malformed`, `C42_nullary_refuted`

### C43 Planner successors (partial)

*Modelled:* Planner::Node, its iterator and memory of ancestors.  
*Proof:* Simulation of the two-level iterator by a comprehension.  
*Remarks:* Proved for domains of the supported fragment with at least one action, for actions with parameters. The refuted theorems show that without any action begin() dereferences the end of the action list and that actions without parameters never give a child, so the unrestricted statement is false of the code.  
*Theorems:* `C43_successors_partial`, `C43_ordinary`, `C43_history`, `C43_empty_refuted`, `C43_nullary_refuted`

### C44 BFS plans are correct (proved)

*Modelled:* BreadthFirstSearch iterator over an arbitrary graph, clock as oracle.  
*Proof:* Invariant of the queue.  
*Theorems:* `C44_plans`

### C45 BFS is complete (proved)

*Modelled:* As C44.  
*Proof:* Level-order characterisation of the yielded sequence.  
*Theorems:* `C45_complete`, `C45_multiplicity`

### C46 BFS yields shortest plans first (proved)

*Modelled:* As C44.  
*Proof:* Level-order characterisation.  
*Theorems:* `C46_sorted`, `C46_shortest`

### C47 BFS terminates; timeouts only truncate (proved)

*Modelled:* As C44 with an arbitrary clock.  
*Proof:* Prefix lemma.  
*Theorems:* `C47_timeouts`, `C47_prefix`

### C48 Plans never revisit a state (proved)

*Modelled:* Planner nodes with any of the three searches.  
*Proof:* Invariant on ancestors.  
*Remarks:* For any domain, any of the three searches and any memory; equality of States is equality of their sets of atoms.  
*Theorems:* `C48_distinct`

### C49 Planner plans are valid plans (partial)

*Modelled:* Planner with the searches against IsValidPlan.  
*Proof:* C43 and C44 composed with C41.  
*Remarks:* Proved for all three searches when the initial state is valid. The refuted theorem shows that otherwise plans may fail: the planner starts from ConsistentState of the initial state, IsValidPlan from the initial state itself.  
*Theorems:* `C49_valid_partial`, `C49_from`, `C49_root`, `C49_start_refuted`

### C50 DFS plans are correct and complete (partial)

*Modelled:* DepthFirstSearch iterator.  
*Proof:* Characterisation of the stack machine.  
*Remarks:* Every yielded plan is correct (any graph, memory and use of the iterator). Completeness is false of the code: the plan found when the stack runs empty is lost (refuted theorem: the root is a goal). Proved: exactly the plans in lexicographic order, last child first, are yielded, minus the path along first children if it is a plan.  
*Theorems:* `C50_plans`, `C50_complete_partial`, `C50_order`, `C50_complete_refuted`

### C51 A* plans are correct and complete (partial)

*Modelled:* AStar iterator with std::priority_queue by contract.  
*Proof:* Invariant on the multiset of open nodes.  
*Remarks:* Every yielded plan is correct for any priorities. Completeness is false of the code: the plan found when the queue runs empty is lost (refuted theorem). Proved: all plans but at most one are yielded, each as often as it occurs.  
*Theorems:* `C51_plans`, `C51_complete_partial`, `C51_lex_plans`, `C51_complete_refuted`

### C52 Normal form is equivalent to the formula (partial)

*Modelled:* DisjunctiveFormula::Create from goals.  
*Proof:* Semantic lemma for each operation. C52_exact by induction with an invariant that also tracks when the result is empty: without = and types no conjunction evaluates to true, and every remaining one is satisfiable.  
*Remarks:* Proved for formulas without trivially true or trivially false subformulas (nondegenerate) under or/not; the refuted theorems show that NormalizeDisjuncts drops true disjuncts and that an all-false disjunction or the negation of a true formula becomes the empty (true) normal form. For formulas without = and type predicates C52_exact says exactly what the normal form means, degenerate formulas included: true disjuncts do not count, a disjunction of which nothing counts is true, and so is the negation of true.  
*Theorems:* `C52_equivalent_partial`, `C52_constants`, `C52_unsatisfiable`, `C52_true_disjunct_refuted`, `C52_false_disjunction_refuted`, `C52_negated_true_refuted`, `C52_equality_refuted`, `C52_exact`, `C52_regular`

### C53 Normal-form simplification preserves meaning (proved)

*Modelled:* Simplify, Evaluate, TryInsertSubset, IsSubset.  
*Proof:* Semantic lemmas.  
*Remarks:* Proved for all lists of conjunctions of literals over declared objects, with and without axiom checks, and for equations between variables; the refuted theorem shows that a type predicate of a variable is decided although assignments of the variable disagree.  
*Theorems:* `C53_simplify`, `C53_axioms`, `C53_variables`, `C53_variable_type_refuted`

### C54 Normal forms are irredundant (proved)

*Modelled:* As C53.  
*Proof:* Invariant of insertion.  
*Theorems:* `C54_irredundant`

### C55 Added objects become usable (partial)

*Modelled:* Pddl::AddObject.  
*Proof:* Computation of the effect on lookups and lists, histories of edits.  
*Remarks:* Found by name with the right type, listed by objects(), and nothing else changes: proved. That it is enumerated is false (refuted theorem): object_map_ and the parameter generators are never updated, so no added object is ever enumerated, whatever edits are made. In a domain without :types the call is undefined.  
*Theorems:* `C55_found_partial`, `C55_enumerated_refuted`, `C55_never_enumerated`, `C55_untyped_refuted`

### C56 Removed objects disappear (partial)

*Modelled:* Pddl::RemoveObject with deleted symbols.  
*Proof:* Histories of edits; reads of deleted symbols are UB.  
*Remarks:* Found by name and listed exactly when added and not removed since, over any sequence of edits that does not remove constants of the domain; everything stays defined when only added objects are removed. For objects of the problem file the claim is false (refuted theorems): they are still enumerated and their deleted symbols are read; removing a constant makes lookups by name undefined.  
*Theorems:* `C56_history_partial`, `C56_safe_partial`, `C56_round_trip`, `C56_enumerated_refuted`, `C56_constant_refuted`

### C57 Parameterless operators are treated like any other (partial)

*Modelled:* All of the above with empty parameter lists.  
*Proof:* Computation.  
*Remarks:* Proved: calls without arguments are validated and executed like others. The rest of the claim is false, with theorems for every domain: they are never listed, never tried by the planner, derived predicates without parameters never change and axioms without parameters are never checked; index numbers collide or fall outside the vector.  
*Theorems:* `C57_called_partial`, `C57_never_listed`, `C57_listed_refuted`, `C57_never_planned`, `C57_planned_refuted`, `C57_never_derived`, `C57_derived_refuted`, `C57_never_checked`, `C57_number_refuted`, `C57_outside_refuted`

### C58 Problem text is well formed (proved)

*Modelled:* symbolic/problem.py.  
*Proof:* Lemmas on balance, tokens and typed lists.  
*Remarks:* Balance for every problem whose pieces are balanced; call syntax and printed propositions are stored as the same atom in PDDL syntax; beyond that, formulas, objects and whole problems are read back as what was meant. The refuted theorems concern more than the statement: quantifiers are printed without the parentheses of the variable list, an object without a type listed before a typed one takes its type, blanks do not separate arguments as they do in C++, and set_initial_state adds to what is there.  
*Theorems:* `C58_balanced`, `C58_unique`, `C58_formula`, `C58_quantifier`, `C58_quantifier_refuted`, `C58_problem`, `C58_session`, `C58_objects`, `C58_objects_captured`, `C58_objects_refuted`, `C58_call`, `C58_proposition`, `C58_to_pddl`, `C58_parse`, `C58_agree`, `C58_agree_refuted`, `C58_no_call`, `C58_set_state_refuted`

### C59 Normal form of effects is the postcondition (partial)

*Modelled:* DisjunctiveFormula::Create from effects.  
*Proof:* Semantic lemma for each operation. C59_exact likewise (Spec/ReadingSpec).  
*Remarks:* Proved when the conditions of conditional effects are nondegenerate in the sense of C52; the refuted theorem shows a trivially true condition. C59_exact gives the exact meaning without = and type predicates: an effect on a constant condition is asked for, one on a condition that merely always holds is ignored, and one that asks nothing demands that the condition does not hold. C59_throws says exactly when the function throws instead, which depends on the order of declarations (for arbitrary nesting of forall and conditional effects).  
*Theorems:* `C59_effects_partial`, `C59_true_condition_refuted`, `C59_exact`, `C59_throws`, `C59_askable`

### C60 PDDL text of propositions (proved)

*Modelled:* Proposition::to_pddl.  
*Proof:* String lemmas.  
*Theorems:* `C60_pddl_text`, `C60_injective`

### C61 Initial state (proved)

*Modelled:* GetInitialState and the constructor of Pddl.  
*Proof:* Fold lemma; C29, C30.  
*Theorems:* `C61_initial`, `C61_members`, `C61_store`

### C62 Breadth-first search finds a shortest valid plan (proved)

*Modelled:* Planner with BreadthFirstSearch.  
*Proof:* C45, C43 and removal of loops from a valid plan.  
*Remarks:* For the supported fragment without effects on = or types. The refuted theorem shows that a plan with an action without parameters can be missed, which the statement excludes.  
*Theorems:* `C62_shortest`, `C62_nullary_refuted`

### C63 State index from Python (partial)

*Modelled:* The Python bindings of StateIndex (src/python/symbolic.cc).  
*Proof:* C36; refutations by computation.  
*Remarks:* The numbers are proved; the functions that read text are undefined for every index (refuted theorems), because Predicate leaves the pddl pointer of its base class null.  
*Theorems:* `C63_negative_partial`, `C63_index_refuted`, `C63_vector_refuted`

### C64 Normalized conditions and goals (partial)

*Modelled:* The four Normalize functions on domains (Normalize.v).  
*Proof:* C52, C59, C18 and C26; C32 for each conjunction; every well-formed State is built by insertions.  
*Remarks:* Proved for conditions without trivially true or false subformulas (as C52, C59); NextState for domains without derived predicates and effects that trigger no axiom, change nothing a condition reads and do not contradict each other. With apply_axioms, one direction in general, both if axioms do not trigger each other. The last part of the claim is false: one disjunct that contradicts the axioms makes the functions throw (C64_throws_refuted). C64_exact and C64_goal_exact give the exact meaning for conditions without = and type predicates.  
*Theorems:* `C64_preconditions_partial`, `C64_goal_partial`, `C64_postconditions_partial`, `C64_applied`, `C64_pair`, `C64_rejects`, `C64_preconditions_axioms`, `C64_postconditions_axioms`, `C64_goal_axioms`, `C64_applicable`, `C64_goal_met`, `C64_throws_refuted`, `C64_exact`, `C64_goal_exact`

### C65 Sets of strings as states in Python (proved)

*Modelled:* The functions of symbolic.cc that take and return sets of strings (Python.v).  
*Proof:* Every function keeps the propositions of a State over declared objects (induction over effects, axiom cascades and loops); on such States printing and parsing is the identity, also after reordering; then C29-C35, C39-C41 on States.  
*Remarks:* For the supported fragment (good_domain), whose names are words without blanks, commas and parentheses and whose effects are about declared objects (text_domain); the parser of VAL ensures the latter.  
*Theorems:* `C65_actions`, `C65_agrees`, `C65_next`, `C65_chain`, `C65_valid`, `C65_tuple`, `C65_plan`, `C65_derived`, `C65_next_derived`, `C65_valid_state`, `C65_consistent`, `C65_partial_state`, `C65_set_initial`, `C65_keep_initial`, `C65_constructor`, `C65_malformed`

### C66 Checking partial states terminates (proved)

*Modelled:* The while loops of IsValidState and ConsistentState on PartialStates.  
*Proof:* A direct literal with status 1 makes an unknown atom known, known atoms stay known, and all atoms come from a finite set (induction over effects and cascades); the number of unknown atoms decreases. A chain of 51 dependent atoms for the limit.  
*Remarks:* For axioms with parameters without cyclic cascades (wf_axiom, good_axiom, ranked); that a valid completion guarantees an answer also needs typed_axiom as in C31. The refuted theorem shows that the limit of 50 is sharp.  
*Theorems:* `C66_valid_terminates`, `C66_valid_rounds`, `C66_consistent_outcome`, `C66_consistent_answers`, `C66_limit_refuted`

### C67 Text of formulas (proved)

*Modelled:* The strings built by CreateFormula, with the stringstream that is overwritten from the start (Print.v).  
*Proof:* Induction over formulas: tokens of the text; counting parentheses shows that quantifiers leave it unbalanced; the tokens determine the formula.  
*Remarks:* For names that are words and predicates not named like connectives (clean_goal); every formula that can be constructed. The refuted theorems show the last sentence and why the names have to be different.  
*Theorems:* `C67_readable`, `C67_forgets_variables`, `C67_pddl`, `C67_identifies`, `C67_quantifiers_refuted`, `C67_variables_refuted`

### C68 Text of states, normal forms and nodes (proved)

*Modelled:* The output operators of State, PartialState, the normal forms and nodes (Print.v).  
*Proof:* Sorting gives the unique increasing list; texts are cut at closing parentheses, line ends and escape characters. The layout theorems give these texts line by line.  
*Remarks:* The refuted theorem shows that names with commas are ambiguous.  
*Theorems:* `C68_state_text`, `C68_equal_states`, `C68_states`, `C68_partial_states`, `C68_normal_forms`, `C68_partial_text`, `C68_dnf_text`, `C68_cnf_text`, `C68_nodes`, `C68_names_refuted`

### C69 Constructing axioms (proved)

*Modelled:* StringifyFormula with the dereferenced optional (Print.v).  
*Proof:* Computation of Create, Conjoin and Negate on single conjunctions.  
*Remarks:* For ordinary predicates (not = and not types); the refuted theorem shows a context with = that is undefined as well.  
*Theorems:* `C69_axiom_text`, `C69_equality_refuted`

### C70 Stepping through the children of a node (partial)

*Modelled:* The iterator with it_action_, it_param_ (a combination iterator) and child_, operator++, operator-- and operator== (PlannerSteps.v).  
*Proof:* The list of all pairs of action and tuple is split at the cursor; each loop finds the next or previous pair that yields a child. What an attempt yields depends on neither sibling nor store.  
*Remarks:* Forward steps proved for every good domain. Steps in both directions proved if every action has arguments to try and every parameter except first ones at least two objects; otherwise the claim is false (refuted theorems). Iterators compare equal only at the end.  
*Theorems:* `C70_forward`, `C70_steps_partial`, `C70_single_refuted`, `C70_nullary_refuted`, `C70_equality`, `C70_equal_refuted`

### C71 Plans from Python (proved)

*Modelled:* Python objects on a heap with the reference root_ and the pointer bfs_ as positions on it; construction, __iter__ (a copy), __next__ and freeing (PySearch.v), over the search of Search.v.  
*Proof:* The heap refines counters into lists of plans: what a queue still yields is the rest of the list. StopIteration is permanent because ++ of an iterator without queue does nothing.  
*Remarks:* For programs that free nothing while it is used. iter(x) is a copy and not x, and searches keep alive neither the planner nor the search they were copied from; freeing these leads to undefined behaviour (refuted theorems).  
*Theorems:* `C71_programs`, `C71_loops`, `C71_stays`, `C71_protocol_refuted`, `C71_root_refuted`, `C71_copy_refuted`

### C72 Sorted vectors (proved)

*Modelled:* The loop of std::lower_bound on positions with unchecked reads, std::is_sorted, std::unique, the constructor and the calls of UniqueVector; HashSet again on top of them with asserts, remainders by zero and sets left by a move; the State of state.h 37 (UniqueVector.v).  
*Proof:* The search keeps the wanted position in its range and halves the range; calls with asserts equal calls of HashSet.v on sorted buckets, and all buckets of every history are sorted. The vector State and the hash set are related by having the same keys.  
*Remarks:* The search is libstdc++'s loop. Not alike: < of the two kinds of State (refuted theorem) and the order of iteration. A moved-from set cannot be used at all (example).  
*Theorems:* `C72_hash_set`, `C72_search`, `C72_vector_state`, `C72_vector_equality`, `C72_order_refuted`

### C73 Loading, printing and pickling a Pddl (partial)

*Modelled:* ParsePddl's choice between text and file, both constructors around an arbitrary parser, null pointers of a Pddl without a problem, set_initial_state, AddObject, RemoveObject, repr and pickling (Load.v). Python literals are specified by a small reader (LoadSpec.v).  
*Proof:* Induction on the argument for the last character; the text of a Problem is shown to end with a parenthesis; the constructors differ only in the initial state, so a copy is computed from the original; changes keep both arguments (induction on the sequence).  
*Remarks:* Pickling and repr keep only the two arguments: a copy loses apply_axioms=false, the initial state that was set and edited objects, and of a Pddl without a problem it is undefined (refuted theorems; the copy obtained is characterised in every case). VAL's parser is an arbitrary function; files do not change between calls. The actions of an unpickled Pddl point to the temporary it was moved from, which matters for Action::to_string only (C81_pointer_refuted).  
*Theorems:* `C73_source`, `C73_generated`, `C73_with_problem`, `C73_empty_refuted`, `C73_domain_only`, `C73_goal_unused`, `C73_pickle`, `C73_pickle_axioms`, `C73_pickle_changes`, `C73_pickle_domain_refuted`, `C73_repr`, `C73_repr_refuted`, `C73_pickle_refuted`, `C73_changes_refuted`, `C73_constants_refuted`

### C74 The searches find every direct plan exactly once (proved)

*Modelled:* Planner.v and Search.v; direct plans are sequences of calls between sets of atoms (DirectSpec.v), without nodes or searches.  
*Proof:* Paths of nodes and direct plans are matched step by step: a child is determined by its call, and the States of its ancestors are the sets passed. The lists of paths come from C45, C50 and C51; more fuel does not change a search that ends.  
*Remarks:* For domains of the supported fragment with at least one action whose effects are not about = or types (as C62). Actions without parameters are left out (C43_nullary_refuted).  
*Theorems:* `C74_breadth_first`, `C74_ends`, `C74_depth_first`, `C74_a_star`, `C74_valid`

### C75 The command-line program lists exactly the direct plans (proved)

*Modelled:* App.v: std::stoi, ParseArgs, main, and operator++ of breadth-first search with its printing, as code that returns the text printed and an outcome.  
*Proof:* Command lines have their own grammar (AppSpec.v). The visits are specified by levels of paths, without a queue; a queue run is shown to visit level by level, and the text is compared visit by visit. Erasing the text gives Search.v, so C74 applies. The text of a plan is specified line by line, each call with the state it leads to (AppListing.v), and can be read back.  
*Remarks:* VAL's parser, its type checker and the clock are arbitrary; the domain assumptions are those of C74. Text printed before an exception inside a loop over children is not modelled.  
*Theorems:* `C75_accepts`, `C75_rejects`, `C75_total`, `C75_output`, `C75_readable`, `C75_verbose`, `C75_search`, `C75_unchecked_refuted`, `C75_empty_refuted`, `C75_depth_refuted`, `C75_numbers_refuted`

### C76 Where the order of effects does not matter, plans are those of PDDL (proved)

*Modelled:* Pddl.v, Planner.v and Search.v; the PDDL semantics is given on sets of atoms by literals of effects (PlainSpec.v), without executing effects.  
*Proof:* The effects are applied as C26 says, so that NextState is PDDL's transition; the sets attained stay orderly. Plans follow by induction with C41, search with C74.  
*Remarks:* For domains of the supported fragment. The conditions are needed: C76_clash_refuted, C76_reads_refuted.  
*Theorems:* `C76_next`, `C76_plan`, `C76_search`, `C76_clash_refuted`, `C76_reads_refuted`

### C77 The bundled domain and its problem (proved)

*Modelled:* Bundled.v: the two files as syntax trees; load, is_valid_action, next_state, bfs_all as in Load.v, Pddl.v and Search.v.  
*Proof:* The effects and preconditions are computed as sets of atoms (C76); the invariant by cases on moves. The plans: a run of the search with one hash function lists the direct plans (C74), which do not depend on it; a shortest solution is direct.  
*Remarks:* The files are transcribed as VAL would read them. The assertions of tests.cc about them are examples with three hash functions. C77_circle_refuted: tidiness does not exclude circles.  
*Theorems:* `C77_supported`, `C77_moves`, `C77_tidy`, `C77_start`, `C77_shortest`, `C77_plans`, `C77_search`, `C77_circle_refuted`

### C78 What a Pddl can be made of (proved)

*Modelled:* Construct.v: the constructors with everything that can fail, in their order; make_pddl in Pddl.v calls it before making the initial state consistent.  
*Proof:* Checks for unknown formulas and for numbers of arguments compose (verdict); the normal forms of simple axioms as in C69.  
*Remarks:* Simple axioms only in the first part; what follows from success holds for all axioms. C78_contradiction_refuted: domains of the supported fragment need not be accepted.  
*Theorems:* `C78_outcome`, `C78_made`, `C78_good`, `C78_caught`, `C78_contradiction_refuted`

### C79 What printing a Pddl shows (proved)

*Modelled:* Listing.v: text written to a stream, addresses an arbitrary function of the place; symbols as parsed, with a null type as the empty chain.  
*Proof:* Readability by induction on formulas and effects: what follows a formula is not indented as deep, so the indentation tells where it ends. Outcomes compose as in C78.  
*Remarks:* Two natural expectations are false: printing a Pddl shows its problem (C79_problem_refuted; the domain is printed twice), and a domain without types can be printed (C79_untyped_refuted).  
*Theorems:* `C79_outcome`, `C79_made`, `C79_readable`, `C79_hidden`, `C79_problem_outcome`, `C79_problem`, `C79_problem_hidden`, `C79_problem_refuted`, `C79_untyped_refuted`

### C80 Nodes and loops over their children in Python (proved)

*Modelled:* PyNode.v: objects of a program as a list of nodes and iterators; references to nodes and to the child inside an iterator; pybind11's make_iterator with its first_or_done flag; whether the Pddl exists.  
*Proof:* Refinement: a relation between iterators and their abstraction (node, number of children given) is kept by every operation; positions of iterators as in C70. Loops by induction on the remaining children.  
*Remarks:* Two natural expectations are false: list(node) holds the children (C80_list_refuted: it holds one object several times, which shows what was tried last and need not be a child), and a loop over the children of a child can be interleaved with the outer loop (C80_inner_refuted).  
*Theorems:* `C80_programs`, `C80_loop`, `C80_dropped`, `C80_list_refuted`, `C80_inner_refuted`

### C81 Argument tuples and calls in Python (proved)

*Modelled:* PyArgs.v: objects of a program as a list of argument lists and iterators; lists from a loop refer to the slots of the iterator's combination (pybind11's list_caster keeps reference_internal); make_iterator's first_or_done flag; ParameterGenerator::find and Action::to_string with the pointer to the Pddl as null, dangling or good.  
*Proof:* Refinement as in C80: an iterator is abstracted to its generator and the number of tuples given; positions from C12. Loops by induction on the tuples left; text with C15.  
*Remarks:* Three natural expectations are false: list(gen) holds the tuples (C81_list_refuted: all its lists show the last tuple), gen.index inverts gen[i] (C81_index_refuted: it uses a null pointer for any non-empty list of names), and to_string works on Predicates and on the actions of an unpickled Pddl (C81_pointer_refuted: the pointer to the Pddl is null or points to a Pddl that is gone).  
*Theorems:* `C81_programs`, `C81_loop`, `C81_text`, `C81_list_refuted`, `C81_index_refuted`, `C81_pointer_refuted`

### C82 Iterators over a StateIndex (proved)

*Modelled:* IndexIter.v: the iterator of state.h with its int position and stashed Proposition; programs over named iterators; references as names of iterators or of a temporary that is gone.  
*Proof:* Refinement: iterators and positions are related step by step; caches with the invariant of C38. Loops by induction on the list.  
*Remarks:* Two things a random access iterator promises are false: reverse iteration (C82_reverse_refuted: std::reverse_iterator returns a reference into a temporary) and that references are to elements (C82_reference_refuted).  
*Theorems:* `C82_programs`, `C82_loops`, `C82_reverse_refuted`, `C82_reference_refuted`

### C83 Objects in Python while objects are added and removed (proved)

*Modelled:* PyObjects.v: objects_ as a std::vector with buffer, capacity and any growth function; references are buffers and positions; symbols are numbered and deleted by RemoveObject. Programs and the two natural loops.  
*Proof:* Refinement against held values with a flag that edits take away; invariant that elements have distinct undeleted symbols; loops by induction on the number of remaining references.  
*Remarks:* The natural claim, that an Object stays what it was, is false (C83_removed_refuted, C83_added_refuted, C83_clear_refuted say exactly what happens); C83_values is the claim with the rule that makes it true. pybind11 is modelled by its documented behaviour.  
*Theorems:* `C83_values`, `C83_edits`, `C83_removed_refuted`, `C83_added_refuted`, `C83_clear_refuted`, `C83_clear`, `C83_copy`

### C84 Changing a State while looping over it (proved)

*Modelled:* StateLoop.v: iterators as pairs of indices into the current buckets (HashSet.v), the loops with end() cached or asked for in every step, the loop of State::insert over a range on the same State.  
*Proof:* Invariant 2 * size <= buckets + remaining elements while the number of buckets is the old one (every erase skips at most one element), against size > (buckets - 1) / 2, which the table keeps; once the table has shrunk the cached end() cannot be met. Induction on the size.  
*Remarks:* The natural loop that erases what it visits is refuted for every State with two propositions or more and every hash function (C84_erase_refuted, C84_end_refuted); the two loops of C84_clear work. Variant of State without SYMBOLIC_STATE_USE_SET (a std::vector) is not covered.  
*Theorems:* `C84_unchanged`, `C84_self`, `C84_positions`, `C84_erase_refuted`, `C84_erase_small`, `C84_end_refuted`, `C84_clear`

### C85 PartialState::insert and erase given one of its own literals (proved)

*Modelled:* PartialAlias.v: the argument as a place in the buckets, read again after the first set was changed; undefined once Rehash has replaced the buckets.  
*Proof:* The element behind the erased one takes its place (positions lemma of C84); if the table shrinks the buckets are freed, with one bucket nothing is left in it. Membership by the set specification of C01.  
*Remarks:* The natural statement, that the literal moves to the other set, is refuted for every literal of every reachable PartialState (C85_insert_refuted, C85_erase_refuted). No caller in the repository passes such a reference. The overloads for Proposition&& are not covered.  
*Theorems:* `C85_insert_refuted`, `C85_erase_refuted`, `C85_undefined`, `C85_other`

<!-- per property: end -->
