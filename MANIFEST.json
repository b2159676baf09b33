{
 "claims": [
  {
   "property": "C01",
   "status": "proved",
   "theorems": [
    "C01_membership",
    "C01_return_value"
   ],
   "note": ""
  },
  {
   "property": "C02",
   "status": "proved",
   "theorems": [
    "C02_iteration"
   ],
   "note": ""
  },
  {
   "property": "C03",
   "status": "proved",
   "theorems": [
    "C03_equality",
    "C03_iteration_order"
   ],
   "note": ""
  },
  {
   "property": "C04",
   "status": "proved",
   "theorems": [
    "C04_hash"
   ],
   "note": ""
  },
  {
   "property": "C05",
   "status": "proved",
   "theorems": [
    "C05_borrowed"
   ],
   "note": ""
  },
  {
   "property": "C06",
   "status": "proved",
   "theorems": [
    "C06_proposition_order",
    "C06_state_order",
    "C06_partial_state_order"
   ],
   "note": ""
  },
  {
   "property": "C07",
   "status": "proved",
   "theorems": [
    "C07_disjoint",
    "C07_disjoint_from_sets",
    "C07_contents",
    "C07_codes",
    "C07_codes_inconsistent_refuted"
   ],
   "note": "The refuted theorem shows the consistency hypothesis is needed: a PartialState constructed from overlapping sets reports 1 for a proposition already present."
  },
  {
   "property": "C08",
   "status": "proved",
   "theorems": [
    "C08_queries"
   ],
   "note": ""
  },
  {
   "property": "C09",
   "status": "proved",
   "theorems": [
    "C09_enumerates",
    "C09_product_members",
    "C09_product_distinct",
    "C09_product_count",
    "C09_no_options",
    "C09_empty_option"
   ],
   "note": ""
  },
  {
   "property": "C10",
   "status": "proved",
   "theorems": [
    "C10_find",
    "C10_inverse"
   ],
   "note": ""
  },
  {
   "property": "C11",
   "status": "partial",
   "theorems": [
    "C11_moves_partial",
    "C11_reverse_partial",
    "C11_steps_partial",
    "C11_reverse_exact",
    "C11_exact",
    "C11_digits",
    "C11_reverse_refuted",
    "C11_moves_refuted"
   ],
   "note": "Proved for moves that stay in [0,size), for any steps of ++ and -- within [begin, end] from begin(), and for reverse iteration over options with two or more elements. The refuted theorems show stale digits after jumping past the end and back, and default-constructed digits in reverse iteration, so the unrestricted statement is false of the code. What is shown after any moves among positions that are not negative, and in any reverse iteration, is proved exactly (C11_exact, C11_reverse_exact)."
  },
  {
   "property": "C12",
   "status": "proved",
   "theorems": [
    "C12_at"
   ],
   "note": ""
  },
  {
   "property": "C13",
   "status": "proved",
   "theorems": [
    "C13_arguments"
   ],
   "note": ""
  },
  {
   "property": "C14",
   "status": "proved",
   "theorems": [
    "C14_types",
    "C14_order"
   ],
   "note": ""
  },
  {
   "property": "C15",
   "status": "proved",
   "theorems": [
    "C15_round_trip",
    "C15_injective",
    "C15_any_text",
    "C15_empty_name_refuted"
   ],
   "note": "Proved for all non-empty names without separators (PDDL has no empty names); the refuted theorem shows that an empty argument name would not survive."
  },
  {
   "property": "C16",
   "status": "proved",
   "theorems": [
    "C16_round_trip",
    "C16_stringify"
   ],
   "note": ""
  },
  {
   "property": "C17",
   "status": "proved",
   "theorems": [
    "C17_accepted",
    "C17_rejected",
    "C17_invalid_argument",
    "C17_printed"
   ],
   "note": ""
  },
  {
   "property": "C18",
   "status": "proved",
   "theorems": [
    "C18_semantics",
    "C18_constant_capture_refuted",
    "C18_empty_quantifier_refuted"
   ],
   "note": "Proved for the fragment named in the statement; the refuted theorems show why the two exclusions are needed (constant captured by a variable of the same name; quantifier without variables)."
  },
  {
   "property": "C19",
   "status": "proved",
   "theorems": [
    "C19_history",
    "C19_history_partial_state",
    "C19_closures",
    "C19_closures_partial_state"
   ],
   "note": ""
  },
  {
   "property": "C20",
   "status": "proved",
   "theorems": [
    "C20_sound"
   ],
   "note": ""
  },
  {
   "property": "C21",
   "status": "proved",
   "theorems": [
    "C21_monotone",
    "C21_definite"
   ],
   "note": ""
  },
  {
   "property": "C22",
   "status": "proved",
   "theorems": [
    "C22_plain",
    "C22_pddl"
   ],
   "note": ""
  },
  {
   "property": "C23",
   "status": "proved",
   "theorems": [
    "C23_frame"
   ],
   "note": ""
  },
  {
   "property": "C24",
   "status": "proved",
   "theorems": [
    "C24_unchanged",
    "C24_unchanged_partial_state",
    "C24_converse_refuted"
   ],
   "note": "The refuted theorem concerns the converse, which the property does not claim: a nonzero status may come with an unchanged state."
  },
  {
   "property": "C25",
   "status": "partial",
   "theorems": [
    "C25_forall_partial",
    "C25_order_refuted",
    "C25_last_word"
   ],
   "note": "Proved when no instance is both added and deleted. With overlap the statement is false of the code: the result then depends on the order in which objects are declared (refuted theorem). What the code does with overlap is proved exactly: the last tuple of objects that mentions an atom decides, deletion last within a tuple (C25_last_word)."
  },
  {
   "property": "C26",
   "status": "partial",
   "theorems": [
    "C26_stable_conditions_partial",
    "C26_refuted",
    "C26_sequential"
   ],
   "note": "False of the code in general (refuted theorem: a condition sees effects already applied). Proved when the conditions depend on nothing the action changes and nothing is both added and deleted; then the result is that of PDDL for arbitrary nesting of forall and conditional effects. What the code does in general is proved exactly for effects that trigger no axiom: execution in sequence, conditions seeing what was done before (C26_sequential)."
  },
  {
   "property": "C27",
   "status": "partial",
   "theorems": [
    "C27_known_conditions_partial",
    "C27_unconditional",
    "C27_unknown_condition_refuted",
    "C27_axiom_refuted"
   ],
   "note": "False of the code in general: an unknown condition is treated as false, and an axiom may fire on the partial state only (refuted theorems). Proved for unconditional effects, and for runs in which every condition met is known, when no axiom is triggered."
  },
  {
   "property": "C28",
   "status": "partial",
   "theorems": [
    "C28_substitution_partial",
    "C28_substitution_partial_state",
    "C28_aliasing_refuted"
   ],
   "note": "Proved for axioms that cannot trigger each other in a cycle and whose parameters each occur once in the context, for any contents of the shared argument vectors that earlier calls can leave; includes termination of the cascade. False for self-triggering axioms (refuted theorem: the shared vector is overwritten while being read)."
  },
  {
   "property": "C29",
   "status": "proved",
   "theorems": [
    "C29_valid",
    "C29_meaning",
    "C29_diverges_refuted"
   ],
   "note": "Proved for every axiom set (no restriction), and additionally that the result satisfies the axioms read as implications. The refuted theorem shows that ConsistentState need not return, which the property does not claim."
  },
  {
   "property": "C30",
   "status": "proved",
   "theorems": [
    "C30_fixed",
    "C30_returns",
    "C30_idempotent",
    "C30_meaning",
    "C30_decides",
    "C30_nullary_refuted"
   ],
   "note": "Proved for every axiom set; IsValidState is characterised by the implications for axioms with parameters and always answers when cascades are acyclic. The refuted theorem shows that axioms without parameters are never checked."
  },
  {
   "property": "C31",
   "status": "partial",
   "theorems": [
    "C31_rejection_partial",
    "C31_untyped_refuted",
    "C31_accepts_refuted"
   ],
   "note": "Proved for well-typed axioms (a literal of an effect only denotes objects admitted by the axioms it triggers) without cyclic cascades, each parameter once in the context. Without the typing condition the statement is false of the code (refuted theorem). The converse (acceptance implies a valid completion) is false too."
  },
  {
   "property": "C32",
   "status": "proved",
   "theorems": [
    "C32_stable",
    "C32_known",
    "C32_extends",
    "C32_sound",
    "C32_override_refuted"
   ],
   "note": "Proved for every axiom set, with the exception the statement makes for cascades. Beyond it: with a valid completion nothing known is ever changed and everything added is true in all valid completions. The refuted theorem exhibits the exception."
  },
  {
   "property": "C33",
   "status": "proved",
   "theorems": [
    "C33_fixpoint",
    "C33_unique",
    "C33_least_refuted"
   ],
   "note": "Proved for all rules with at least one parameter, recursive or not; without recursion the result is the unique model. The refuted theorem is about a stronger reading (least model) that fails for recursive rules."
  },
  {
   "property": "C34",
   "status": "proved",
   "theorems": [
    "C34_local",
    "C34_idempotent"
   ],
   "note": ""
  },
  {
   "property": "C35",
   "status": "proved",
   "theorems": [
    "C35_terminates",
    "C35_no_derived_in_bodies",
    "C35_positive",
    "C35_no_model_diverges",
    "C35_negative_recursion_refuted",
    "C35_two_rules_refuted",
    "C35_recursion_refuted"
   ],
   "note": "Proved for rules without recursion (derived predicates may be mentioned in bodies of higher rank), and for positive recursion from states without derived atoms, where the result is the least model. The refuted theorems give the divergent cases the statement mentions and one more: positive recursion from a state with stale derived atoms."
  },
  {
   "property": "C36",
   "status": "proved",
   "theorems": [
    "C36_exists",
    "C36_bijection",
    "C36_iteration",
    "C36_others",
    "C36_nullary_refuted",
    "C36_empty_refuted"
   ],
   "note": "Proved for both settings of the cache, after any earlier queries, for predicates with parameters, distinct names and counts that fit the machine types; also the order of the numbering, iteration, and what happens to everything else. The refuted theorems concern cases outside the statement: predicates without parameters share numbers, and no predicates at all is undefined."
  },
  {
   "property": "C37",
   "status": "proved",
   "theorems": [
    "C37_state",
    "C37_vector",
    "C37_nullary_refuted",
    "C37_outside_refuted"
   ],
   "note": "Both round trips, after any earlier queries, and what each bit means. The refuted theorems show why positive arity is needed."
  },
  {
   "property": "C38",
   "status": "proved",
   "theorems": [
    "C38_cache",
    "C38_names_refuted"
   ],
   "note": "Every sequence of queries (lookups, conversions, iteration) on any predicate list, for propositions whose text is unambiguous, which includes all that can be parsed; the refuted theorem shows a confusion for an argument named 'a, b'."
  },
  {
   "property": "C39",
   "status": "proved",
   "theorems": [
    "C39_fold",
    "C39_split",
    "C39_meaning",
    "C39_history"
   ],
   "note": "C39_fold and C39_split hold for every domain; C39_meaning says what the result is for domains of the supported fragment (good_domain)."
  },
  {
   "property": "C40",
   "status": "proved",
   "theorems": [
    "C40_tuple",
    "C40_text",
    "C40_malformed"
   ],
   "note": "For domains of the supported fragment (good_domain), for States and for sets of strings."
  },
  {
   "property": "C41",
   "status": "proved",
   "theorems": [
    "C41_plan",
    "C41_goal"
   ],
   "note": "For domains of the supported fragment (good_domain); calls that do not parse, or an effect the code rejects, make the code throw instead of returning false."
  },
  {
   "property": "C42",
   "status": "proved",
   "theorems": [
    "C42_order",
    "C42_listed",
    "C42_arguments",
    "C42_accepted",
    "C42_valid",
    "C42_text",
    "C42_malformed",
    "C42_nullary_refuted"
   ],
   "note": "Proved as stated, for actions with at least one parameter; the refuted theorem shows that valid actions without parameters are never listed (see C57)."
  },
  {
   "property": "C43",
   "status": "partial",
   "theorems": [
    "C43_successors_partial",
    "C43_ordinary",
    "C43_history",
    "C43_empty_refuted",
    "C43_nullary_refuted"
   ],
   "note": "Proved for domains of the supported fragment with at least one action, for actions with parameters. The refuted theorems show that without any action begin() dereferences the end of the action list and that actions without parameters never give a child, so the unrestricted statement is false of the code."
  },
  {
   "property": "C44",
   "status": "proved",
   "theorems": [
    "C44_plans"
   ],
   "note": ""
  },
  {
   "property": "C45",
   "status": "proved",
   "theorems": [
    "C45_complete",
    "C45_multiplicity"
   ],
   "note": ""
  },
  {
   "property": "C46",
   "status": "proved",
   "theorems": [
    "C46_sorted",
    "C46_shortest"
   ],
   "note": ""
  },
  {
   "property": "C47",
   "status": "proved",
   "theorems": [
    "C47_timeouts",
    "C47_prefix"
   ],
   "note": ""
  },
  {
   "property": "C48",
   "status": "proved",
   "theorems": [
    "C48_distinct"
   ],
   "note": "For any domain, any of the three searches and any memory; equality of States is equality of their sets of atoms."
  },
  {
   "property": "C49",
   "status": "partial",
   "theorems": [
    "C49_valid_partial",
    "C49_from",
    "C49_root",
    "C49_start_refuted"
   ],
   "note": "Proved for all three searches when the initial state is valid. The refuted theorem shows that otherwise plans may fail: the planner starts from ConsistentState of the initial state, IsValidPlan from the initial state itself."
  },
  {
   "property": "C50",
   "status": "partial",
   "theorems": [
    "C50_plans",
    "C50_complete_partial",
    "C50_order",
    "C50_complete_refuted"
   ],
   "note": "Every yielded plan is correct (any graph, memory and use of the iterator). Completeness is false of the code: the plan found when the stack runs empty is lost (refuted theorem: the root is a goal). Proved: exactly the plans in lexicographic order, last child first, are yielded, minus the path along first children if it is a plan."
  },
  {
   "property": "C51",
   "status": "partial",
   "theorems": [
    "C51_plans",
    "C51_complete_partial",
    "C51_lex_plans",
    "C51_complete_refuted"
   ],
   "note": "Every yielded plan is correct for any priorities. Completeness is false of the code: the plan found when the queue runs empty is lost (refuted theorem). Proved: all plans but at most one are yielded, each as often as it occurs."
  },
  {
   "property": "C52",
   "status": "partial",
   "theorems": [
    "C52_equivalent_partial",
    "C52_constants",
    "C52_unsatisfiable",
    "C52_true_disjunct_refuted",
    "C52_false_disjunction_refuted",
    "C52_negated_true_refuted",
    "C52_equality_refuted",
    "C52_exact",
    "C52_regular"
   ],
   "note": "Proved for formulas without trivially true or trivially false subformulas (nondegenerate) under or/not; the refuted theorems show that NormalizeDisjuncts drops true disjuncts and that an all-false disjunction or the negation of a true formula becomes the empty (true) normal form. For formulas without = and type predicates C52_exact says exactly what the normal form means, degenerate formulas included: true disjuncts do not count, a disjunction of which nothing counts is true, and so is the negation of true."
  },
  {
   "property": "C53",
   "status": "proved",
   "theorems": [
    "C53_simplify",
    "C53_axioms",
    "C53_variables",
    "C53_variable_type_refuted"
   ],
   "note": "Proved for all lists of conjunctions of literals over declared objects, with and without axiom checks, and for equations between variables; the refuted theorem shows that a type predicate of a variable is decided although assignments of the variable disagree."
  },
  {
   "property": "C54",
   "status": "proved",
   "theorems": [
    "C54_irredundant"
   ],
   "note": ""
  },
  {
   "property": "C55",
   "status": "partial",
   "theorems": [
    "C55_found_partial",
    "C55_enumerated_refuted",
    "C55_never_enumerated",
    "C55_untyped_refuted"
   ],
   "note": "Found by name with the right type, listed by objects(), and nothing else changes: proved. That it is enumerated is false (refuted theorem): object_map_ and the parameter generators are never updated, so no added object is ever enumerated, whatever edits are made. In a domain without :types the call is undefined."
  },
  {
   "property": "C56",
   "status": "partial",
   "theorems": [
    "C56_history_partial",
    "C56_safe_partial",
    "C56_round_trip",
    "C56_enumerated_refuted",
    "C56_constant_refuted"
   ],
   "note": "Found by name and listed exactly when added and not removed since, over any sequence of edits that does not remove constants of the domain; everything stays defined when only added objects are removed. For objects of the problem file the claim is false (refuted theorems): they are still enumerated and their deleted symbols are read; removing a constant makes lookups by name undefined."
  },
  {
   "property": "C57",
   "status": "partial",
   "theorems": [
    "C57_called_partial",
    "C57_never_listed",
    "C57_listed_refuted",
    "C57_never_planned",
    "C57_planned_refuted",
    "C57_never_derived",
    "C57_derived_refuted",
    "C57_never_checked",
    "C57_number_refuted",
    "C57_outside_refuted"
   ],
   "note": "Proved: calls without arguments are validated and executed like others. The rest of the claim is false, with theorems for every domain: they are never listed, never tried by the planner, derived predicates without parameters never change and axioms without parameters are never checked; index numbers collide or fall outside the vector."
  },
  {
   "property": "C58",
   "status": "proved",
   "theorems": [
    "C58_balanced",
    "C58_unique",
    "C58_formula",
    "C58_quantifier",
    "C58_quantifier_refuted",
    "C58_problem",
    "C58_session",
    "C58_objects",
    "C58_objects_captured",
    "C58_objects_refuted",
    "C58_call",
    "C58_proposition",
    "C58_to_pddl",
    "C58_parse",
    "C58_agree",
    "C58_agree_refuted",
    "C58_no_call",
    "C58_set_state_refuted"
   ],
   "note": "Balance for every problem whose pieces are balanced; call syntax and printed propositions are stored as the same atom in PDDL syntax; beyond that, formulas, objects and whole problems are read back as what was meant. The refuted theorems concern more than the statement: quantifiers are printed without the parentheses of the variable list, an object without a type listed before a typed one takes its type, blanks do not separate arguments as they do in C++, and set_initial_state adds to what is there."
  },
  {
   "property": "C59",
   "status": "partial",
   "theorems": [
    "C59_effects_partial",
    "C59_true_condition_refuted",
    "C59_exact",
    "C59_throws",
    "C59_askable"
   ],
   "note": "Proved when the conditions of conditional effects are nondegenerate in the sense of C52; the refuted theorem shows a trivially true condition. C59_exact gives the exact meaning without = and type predicates: an effect on a constant condition is asked for, one on a condition that merely always holds is ignored, and one that asks nothing demands that the condition does not hold. C59_throws says exactly when the function throws instead, which depends on the order of declarations (for arbitrary nesting of forall and conditional effects)."
  },
  {
   "property": "C60",
   "status": "proved",
   "theorems": [
    "C60_pddl_text",
    "C60_injective"
   ],
   "note": ""
  },
  {
   "property": "C61",
   "status": "proved",
   "theorems": [
    "C61_initial",
    "C61_members",
    "C61_store"
   ],
   "note": ""
  },
  {
   "property": "C62",
   "status": "proved",
   "theorems": [
    "C62_shortest",
    "C62_nullary_refuted"
   ],
   "note": "For the supported fragment without effects on = or types. The refuted theorem shows that a plan with an action without parameters can be missed, which the statement excludes."
  },
  {
   "property": "C63",
   "status": "partial",
   "theorems": [
    "C63_negative_partial",
    "C63_index_refuted",
    "C63_vector_refuted"
   ],
   "note": "The numbers are proved; the functions that read text are undefined for every index (refuted theorems), because Predicate leaves the pddl pointer of its base class null."
  },
  {
   "property": "C64",
   "status": "partial",
   "theorems": [
    "C64_preconditions_partial",
    "C64_goal_partial",
    "C64_postconditions_partial",
    "C64_applied",
    "C64_pair",
    "C64_rejects",
    "C64_preconditions_axioms",
    "C64_postconditions_axioms",
    "C64_goal_axioms",
    "C64_applicable",
    "C64_goal_met",
    "C64_throws_refuted",
    "C64_exact",
    "C64_goal_exact"
   ],
   "note": "Proved for conditions without trivially true or false subformulas (as C52, C59); NextState for domains without derived predicates and effects that trigger no axiom, change nothing a condition reads and do not contradict each other. With apply_axioms, one direction in general, both if axioms do not trigger each other. The last part of the claim is false: one disjunct that contradicts the axioms makes the functions throw (C64_throws_refuted). C64_exact and C64_goal_exact give the exact meaning for conditions without = and type predicates."
  },
  {
   "property": "C65",
   "status": "proved",
   "theorems": [
    "C65_actions",
    "C65_agrees",
    "C65_next",
    "C65_chain",
    "C65_valid",
    "C65_tuple",
    "C65_plan",
    "C65_derived",
    "C65_next_derived",
    "C65_valid_state",
    "C65_consistent",
    "C65_partial_state",
    "C65_set_initial",
    "C65_keep_initial",
    "C65_constructor",
    "C65_malformed"
   ],
   "note": "For the supported fragment (good_domain), whose names are words without blanks, commas and parentheses and whose effects are about declared objects (text_domain); the parser of VAL ensures the latter."
  },
  {
   "property": "C66",
   "status": "proved",
   "theorems": [
    "C66_valid_terminates",
    "C66_valid_rounds",
    "C66_consistent_outcome",
    "C66_consistent_answers",
    "C66_limit_refuted"
   ],
   "note": "For axioms with parameters without cyclic cascades (wf_axiom, good_axiom, ranked); that a valid completion guarantees an answer also needs typed_axiom as in C31. The refuted theorem shows that the limit of 50 is sharp."
  },
  {
   "property": "C67",
   "status": "proved",
   "theorems": [
    "C67_readable",
    "C67_forgets_variables",
    "C67_pddl",
    "C67_identifies",
    "C67_quantifiers_refuted",
    "C67_variables_refuted"
   ],
   "note": "For names that are words and predicates not named like connectives (clean_goal); every formula that can be constructed. The refuted theorems show the last sentence and why the names have to be different."
  },
  {
   "property": "C68",
   "status": "proved",
   "theorems": [
    "C68_state_text",
    "C68_equal_states",
    "C68_states",
    "C68_partial_states",
    "C68_normal_forms",
    "C68_partial_text",
    "C68_dnf_text",
    "C68_cnf_text",
    "C68_nodes",
    "C68_names_refuted"
   ],
   "note": "The refuted theorem shows that names with commas are ambiguous."
  },
  {
   "property": "C69",
   "status": "proved",
   "theorems": [
    "C69_axiom_text",
    "C69_equality_refuted"
   ],
   "note": "For ordinary predicates (not = and not types); the refuted theorem shows a context with = that is undefined as well."
  },
  {
   "property": "C70",
   "status": "partial",
   "theorems": [
    "C70_forward",
    "C70_steps_partial",
    "C70_single_refuted",
    "C70_nullary_refuted",
    "C70_equality",
    "C70_equal_refuted"
   ],
   "note": "Forward steps proved for every good domain. Steps in both directions proved if every action has arguments to try and every parameter except first ones at least two objects; otherwise the claim is false (refuted theorems). Iterators compare equal only at the end."
  },
  {
   "property": "C71",
   "status": "proved",
   "theorems": [
    "C71_programs",
    "C71_loops",
    "C71_stays",
    "C71_protocol_refuted",
    "C71_root_refuted",
    "C71_copy_refuted"
   ],
   "note": "For programs that free nothing while it is used. iter(x) is a copy and not x, and searches keep alive neither the planner nor the search they were copied from; freeing these leads to undefined behaviour (refuted theorems)."
  },
  {
   "property": "C72",
   "status": "proved",
   "theorems": [
    "C72_hash_set",
    "C72_search",
    "C72_vector_state",
    "C72_vector_equality",
    "C72_order_refuted"
   ],
   "note": "The search is libstdc++'s loop. Not alike: < of the two kinds of State (refuted theorem) and the order of iteration. A moved-from set cannot be used at all (example)."
  },
  {
   "property": "C73",
   "status": "partial",
   "theorems": [
    "C73_source",
    "C73_generated",
    "C73_with_problem",
    "C73_empty_refuted",
    "C73_domain_only",
    "C73_goal_unused",
    "C73_pickle",
    "C73_pickle_axioms",
    "C73_pickle_changes",
    "C73_pickle_domain_refuted",
    "C73_repr",
    "C73_repr_refuted",
    "C73_pickle_refuted",
    "C73_changes_refuted",
    "C73_constants_refuted"
   ],
   "note": "Pickling and repr keep only the two arguments: a copy loses apply_axioms=false, the initial state that was set and edited objects, and of a Pddl without a problem it is undefined (refuted theorems; the copy obtained is characterised in every case). VAL's parser is an arbitrary function; files do not change between calls. The actions of an unpickled Pddl point to the temporary it was moved from, which matters for Action::to_string only (C81_pointer_refuted)."
  },
  {
   "property": "C74",
   "status": "proved",
   "theorems": [
    "C74_breadth_first",
    "C74_ends",
    "C74_depth_first",
    "C74_a_star",
    "C74_valid"
   ],
   "note": "For domains of the supported fragment with at least one action whose effects are not about = or types (as C62). Actions without parameters are left out (C43_nullary_refuted)."
  },
  {
   "property": "C75",
   "status": "proved",
   "theorems": [
    "C75_accepts",
    "C75_rejects",
    "C75_total",
    "C75_output",
    "C75_readable",
    "C75_verbose",
    "C75_search",
    "C75_unchecked_refuted",
    "C75_empty_refuted",
    "C75_depth_refuted",
    "C75_numbers_refuted"
   ],
   "note": "VAL's parser, its type checker and the clock are arbitrary; the domain assumptions are those of C74. Text printed before an exception inside a loop over children is not modelled."
  },
  {
   "property": "C76",
   "status": "proved",
   "theorems": [
    "C76_next",
    "C76_plan",
    "C76_search",
    "C76_clash_refuted",
    "C76_reads_refuted"
   ],
   "note": "For domains of the supported fragment. The conditions are needed: C76_clash_refuted, C76_reads_refuted."
  },
  {
   "property": "C77",
   "status": "proved",
   "theorems": [
    "C77_supported",
    "C77_moves",
    "C77_tidy",
    "C77_start",
    "C77_shortest",
    "C77_plans",
    "C77_search",
    "C77_circle_refuted"
   ],
   "note": "The files are transcribed as VAL would read them. The assertions of tests.cc about them are examples with three hash functions. C77_circle_refuted: tidiness does not exclude circles."
  },
  {
   "property": "C78",
   "status": "proved",
   "theorems": [
    "C78_outcome",
    "C78_made",
    "C78_good",
    "C78_caught",
    "C78_contradiction_refuted"
   ],
   "note": "Simple axioms only in the first part; what follows from success holds for all axioms. C78_contradiction_refuted: domains of the supported fragment need not be accepted."
  },
  {
   "property": "C79",
   "status": "proved",
   "theorems": [
    "C79_outcome",
    "C79_made",
    "C79_readable",
    "C79_hidden",
    "C79_problem_outcome",
    "C79_problem",
    "C79_problem_hidden",
    "C79_problem_refuted",
    "C79_untyped_refuted"
   ],
   "note": "Two natural expectations are false: printing a Pddl shows its problem (C79_problem_refuted; the domain is printed twice), and a domain without types can be printed (C79_untyped_refuted)."
  },
  {
   "property": "C80",
   "status": "proved",
   "theorems": [
    "C80_programs",
    "C80_loop",
    "C80_dropped",
    "C80_list_refuted",
    "C80_inner_refuted"
   ],
   "note": "Two natural expectations are false: list(node) holds the children (C80_list_refuted: it holds one object several times, which shows what was tried last and need not be a child), and a loop over the children of a child can be interleaved with the outer loop (C80_inner_refuted)."
  },
  {
   "property": "C81",
   "status": "proved",
   "theorems": [
    "C81_programs",
    "C81_loop",
    "C81_text",
    "C81_list_refuted",
    "C81_index_refuted",
    "C81_pointer_refuted"
   ],
   "note": "Three natural expectations are false: list(gen) holds the tuples (C81_list_refuted: all its lists show the last tuple), gen.index inverts gen[i] (C81_index_refuted: it uses a null pointer for any non-empty list of names), and to_string works on Predicates and on the actions of an unpickled Pddl (C81_pointer_refuted: the pointer to the Pddl is null or points to a Pddl that is gone)."
  },
  {
   "property": "C82",
   "status": "proved",
   "theorems": [
    "C82_programs",
    "C82_loops",
    "C82_reverse_refuted",
    "C82_reference_refuted"
   ],
   "note": "Two things a random access iterator promises are false: reverse iteration (C82_reverse_refuted: std::reverse_iterator returns a reference into a temporary) and that references are to elements (C82_reference_refuted)."
  },
  {
   "property": "C83",
   "status": "proved",
   "theorems": [
    "C83_values",
    "C83_edits",
    "C83_removed_refuted",
    "C83_added_refuted",
    "C83_clear_refuted",
    "C83_clear",
    "C83_copy"
   ],
   "note": "The natural claim, that an Object stays what it was, is false (C83_removed_refuted, C83_added_refuted, C83_clear_refuted say exactly what happens); C83_values is the claim with the rule that makes it true. pybind11 is modelled by its documented behaviour."
  },
  {
   "property": "C84",
   "status": "proved",
   "theorems": [
    "C84_unchanged",
    "C84_self",
    "C84_positions",
    "C84_erase_refuted",
    "C84_erase_small",
    "C84_end_refuted",
    "C84_clear"
   ],
   "note": "The natural loop that erases what it visits is refuted for every State with two propositions or more and every hash function (C84_erase_refuted, C84_end_refuted); the two loops of C84_clear work. Variant of State without SYMBOLIC_STATE_USE_SET (a std::vector) is not covered."
  },
  {
   "property": "C85",
   "status": "proved",
   "theorems": [
    "C85_insert_refuted",
    "C85_erase_refuted",
    "C85_undefined",
    "C85_other"
   ],
   "note": "The natural statement, that the literal moves to the other set, is refuted for every literal of every reachable PartialState (C85_insert_refuted, C85_erase_refuted). No caller in the repository passes such a reference. The overloads for Proposition&& are not covered."
  }
 ]
}