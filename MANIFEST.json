{
 "claims": [
  {
   "property": "C01",
   "status": "partial",
   "theorems": [
    "c01_node_ids_distinct_partial",
    "c01_node_ids_distinct_refuted",
    "c01_threshold_exact",
    "c01_division_rounded"
   ],
   "note": "Holds for the first 62*63^4 nodes of a process; false beyond: '_' is both padding prefix and a digit, so node 62*63^4+k collides with node k."
  },
  {
   "property": "C02",
   "status": "partial",
   "theorems": [
    "c02_auto_name_refuted"
   ],
   "note": "False: the generated submodel name is the id of the next node created."
  },
  {
   "property": "C03",
   "status": "partial",
   "theorems": [
    "c03_accepted_characters",
    "c03_paths_unambiguous_partial",
    "c03_empty_name_refuted"
   ],
   "note": "Holds for non-empty submodel names; the empty name is accepted and makes paths ambiguous. isalnum modelled on ASCII."
  },
  {
   "property": "C04",
   "status": "proved",
   "theorems": [
    "c04_slice_is_python",
    "c04_slice_accepted",
    "c04_python_slices"
   ],
   "note": ""
  },
  {
   "property": "C05",
   "status": "proved",
   "theorems": [
    "c05_read_positions",
    "c05_read_accepted",
    "c05_write_positions"
   ],
   "note": "Keys whose components are ints and slices."
  },
  {
   "property": "C06",
   "status": "proved",
   "theorems": [
    "c06_reads_cached"
   ],
   "note": ""
  },
  {
   "property": "C07",
   "status": "partial",
   "theorems": [
    "c07_assignments_disjoint_partial",
    "c07_disjoint_accepted",
    "c07_negative_index_refuted"
   ],
   "note": "False for negative integer keys, which are recorded raw: y[-1] and y[n-1] are both accepted."
  },
  {
   "property": "C08",
   "status": "partial",
   "theorems": [
    "c08_rejected_no_effect_partial",
    "c08_later_assignments_partial",
    "c08_rejected_no_effect_refuted"
   ],
   "note": "False for overlap errors: the variable and positions are recorded before the check. The exact state after such a rejection is proved; later assignments of other variables to disjoint positions are unaffected."
  },
  {
   "property": "C09",
   "status": "partial",
   "theorems": [
    "c09_outputs_distinct_partial",
    "c09_new_output_fresh_partial",
    "c09_unique_names_refuted"
   ],
   "note": "Outputs are distinct and fresh when registered; create_input and declare_variable accept names in use."
  },
  {
   "property": "C10",
   "status": "proved",
   "theorems": [
    "c10_rejected_call_no_effect"
   ],
   "note": "From every state, not only reachable ones."
  },
  {
   "property": "C11",
   "status": "proved",
   "theorems": [
    "c11_optimisation_data_consistent",
    "c11_objective_never_changes"
   ],
   "note": "Bounds: numbers and one-dimensional arrays."
  },
  {
   "property": "C12",
   "status": "proved",
   "theorems": [
    "c12_explicit_names_distinct",
    "c12_submodels_kept_in_order",
    "c12_add_recorded",
    "c12_only_add_changes_submodels"
   ],
   "note": ""
  },
  {
   "property": "C13",
   "status": "proved",
   "theorems": [
    "c13_unique_promoted_name",
    "c14_promoted_to_unpromoted",
    "c13_reverse_map"
   ],
   "note": "Under well_named: names without '.', non-empty distinct submodel names."
  },
  {
   "property": "C14",
   "status": "proved",
   "theorems": [
    "c14_promoted_to_unpromoted"
   ],
   "note": "Same hypotheses as C13."
  },
  {
   "property": "C15",
   "status": "proved",
   "theorems": [
    "c15_sources_unique"
   ],
   "note": "Across models; within one model see C09."
  },
  {
   "property": "C16",
   "status": "partial",
   "theorems": [
    "c16_targets_same_size_partial",
    "c16_source_target_same_size_partial",
    "c16_same_size_refuted"
   ],
   "note": "False for a source and a declared variable in unrelated submodels; proved for all other pairs (when each single model is consistent)."
  },
  {
   "property": "C17",
   "status": "partial",
   "theorems": [
    "c17_promotes_visible_partial",
    "c17_promotes_refuted"
   ],
   "note": "The code checks the name against the parent's namespace, not the submodel's."
  },
  {
   "property": "C18",
   "status": "proved",
   "theorems": [
    "c18_all_connections_collected",
    "c18_postorder_all_models",
    "c18_postorder_children_first",
    "c18_connections_resolved",
    "c18_first_occurrence_order",
    "c18_accepted"
   ],
   "note": ""
  },
  {
   "property": "C19",
   "status": "proved",
   "theorems": [
    "c19_connections",
    "c19_names_unambiguous",
    "c19_maps_exact"
   ],
   "note": "Graphs without edges between variables (C24)."
  },
  {
   "property": "C20",
   "status": "partial",
   "theorems": [
    "c20_computed_target_rejected_partial",
    "c20_target_declared_refuted"
   ],
   "note": "False: isinstance(target, Variable) accepts inputs."
  },
  {
   "property": "C21",
   "status": "partial",
   "theorems": [
    "c21_consumers_redirected_partial",
    "c21_consumers_redirected_refuted"
   ],
   "note": "Proved when all targets are declared variables; false when an input is the target (C20) and later a source."
  },
  {
   "property": "C22",
   "status": "proved",
   "theorems": [
    "c22_terminates",
    "c22_image",
    "c22_contents",
    "c22_submodels",
    "c22_builds",
    "c22_history_builds"
   ],
   "note": "c22_image holds for all models; c22_contents when names are distinct. With clashing names the objects sharing a name share a node."
  },
  {
   "property": "C23",
   "status": "partial",
   "theorems": [
    "c23_declared_partial",
    "c23_unused_refuted"
   ],
   "note": "False: exactly the declared variables some registered output depends on are in the graph."
  },
  {
   "property": "C24",
   "status": "partial",
   "theorems": [
    "c24_expression_graph",
    "c24_graph_partial",
    "c24_names_distinct",
    "c24_choosable_names",
    "c24_custom_names_refuted"
   ],
   "note": "Proved for the expression graph of every history; for the IR graph when results have distinct names (automatic without custom/implicit operations); false when two custom operations name their outputs alike."
  },
  {
   "property": "C25",
   "status": "proved",
   "theorems": [
    "c25_one_node_per_name"
   ],
   "note": "Sources have distinct promoted names (C15)."
  },
  {
   "property": "C26",
   "status": "partial",
   "theorems": [
    "c26_survivor_partial",
    "c26_survivor_refuted"
   ],
   "note": "Exact survivor characterised; false for the main model against its direct submodels, whose paths have the same number of dots."
  },
  {
   "property": "C27",
   "status": "proved",
   "theorems": [
    "c27_sorted",
    "c27_accepted_iff_acyclic"
   ],
   "note": ""
  },
  {
   "property": "C28",
   "status": "partial",
   "theorems": [
    "c28_recorded_operations_compute_the_program",
    "c28_shape_of_results",
    "c28_when_expressions_raise",
    "c28_array_operand_shape_refuted"
   ],
   "note": "Value, shape and errors of all programs over any field; the part 'result has the shape of the operands' fails for ndarray operands, whose shape is never compared."
  },
  {
   "property": "C29",
   "status": "partial",
   "theorems": [
    "c29_linear_string_says",
    "c29_linear_string_partial",
    "c29_power_string_partial",
    "c29_operator_strings_partial",
    "c29_fraction_refuted",
    "c29_sign_refuted",
    "c29_power_string_refuted"
   ],
   "note": "Exact meaning of the strings; right for the operations recorded by operators on numbers, wrong for fractional coefficients, a leading negative coefficient, a zero factor and array exponents."
  },
  {
   "property": "C30",
   "status": "proved",
   "theorems": [
    "c30_arguments_distinct",
    "c30_recorded_arguments_distinct"
   ],
   "note": ""
  },
  {
   "property": "C31",
   "status": "proved",
   "theorems": [
    "c31_accepted_exactly_when",
    "c31_recorded_maps"
   ],
   "note": "Building the representation of the internal model (which may raise first) is not part of this model."
  },
  {
   "property": "C32",
   "status": "proved",
   "theorems": [
    "c32_terminals_exact"
   ],
   "note": ""
  },
  {
   "property": "C33",
   "status": "partial",
   "theorems": [
    "c33_returned_partial",
    "c33_expose_order_refuted"
   ],
   "note": "The exposed variables come in registration order; the requested order is ignored."
  },
  {
   "property": "C34",
   "status": "partial",
   "theorems": [
    "C34_readable_is_default_or_valid",
    "C34_readable_is_valid",
    "C34_assignment",
    "C34_read_only",
    "C34_rejected_default_refuted",
    "C34_bool_type_refuted",
    "C34_list_of_types_unusable"
   ],
   "note": "Holds for every explicitly set value and, when no declaration raised, for every readable value. A rejected declaration leaves its invalid default readable; types=bool accepts 1; a list or set of types can never be satisfied."
  },
  {
   "property": "C35",
   "status": "partial",
   "theorems": [
    "C35_accepted_update",
    "C35_update_partial",
    "C35_atomic_update_refuted"
   ],
   "note": "Refuted as stated: assignments before the offending one remain; the theorem gives exactly which."
  },
  {
   "property": "C36",
   "status": "partial",
   "theorems": [
    "C36_never_twice",
    "C36_one_call",
    "C36_history",
    "C36_empty_wildcard_refuted",
    "C36_unknown_names_refuted"
   ],
   "note": "Fails for wildcards that stand for nothing (the wildcard is recorded) ; names need not exist."
  },
  {
   "property": "C37",
   "status": "partial",
   "theorems": [
    "C37_names_partial",
    "C37_input_name_reserved",
    "C37_input_and_output_refuted",
    "C37_output_count_refuted",
    "C37_rejected_input_blocks_name",
    "C37_rejected_output_stays"
   ],
   "note": "Inputs unique; outputs may repeat or coincide with later inputs."
  },
  {
   "property": "C38",
   "status": "partial",
   "theorems": [
    "C38_result_shape",
    "C38_unknown_output_letters_ignored",
    "C38_implicit_output_refuted",
    "C38_inconsistent_operands_refuted"
   ],
   "note": "Proved for explicit subscripts; subscripts without an arrow are misread, unknown output letters are ignored, inconsistent operands accepted."
  },
  {
   "property": "C39",
   "status": "proved",
   "theorems": [
    "C39_index_objects",
    "C39_index_objects_scalar",
    "C39_same_shape"
   ],
   "note": ""
  },
  {
   "property": "C40",
   "status": "partial",
   "theorems": [
    "C40_sum",
    "C40_no_axis",
    "C40_shapes_must_agree",
    "C40_extremum",
    "C40_average_pnorm_partial",
    "C40_all_axes_refuted",
    "C40_average_shapes_refuted",
    "C40_sum_repeated_axis_refuted",
    "C40_sum_axis_out_of_range_refuted",
    "C40_sum_axes_not_a_tuple_refuted",
    "C40_transpose",
    "C40_reshape",
    "C40_reshape_negative_refuted",
    "C40_flatten",
    "C40_reorder_axes",
    "C40_reorder_axes_unchecked_refuted",
    "C40_expand",
    "C40_expand_scalar",
    "C40_expand_order_refuted",
    "C40_outer",
    "C40_inner",
    "C40_inner_lengths_refuted",
    "C40_dot",
    "C40_cross",
    "C40_pnorm",
    "C40_bad_axes",
    "C40_not_a_variable",
    "C40_sum_empty_axes_refuted"
   ],
   "note": "Shapes proved for all ranks and sizes; the *_refuted theorems list the inputs that are accepted although no such array operation exists."
  },
  {
   "property": "C41",
   "status": "partial",
   "theorems": [
    "C41_matmat_partial",
    "C41_matmat_mismatch_refuted",
    "C41_matvec",
    "C41_matvec_rank_refuted"
   ],
   "note": "matvec proved for matrices; matmat never compares the inner dimensions."
  },
  {
   "property": "C42",
   "status": "partial",
   "theorems": [
    "C42_values_partial",
    "C42_terminates_partial",
    "C42_combine_operations_raises_refuted",
    "C42_shared_intermediate_refuted",
    "C42_registered_output_removed_refuted",
    "C42_no_compute_string_refuted",
    "C42_combining_raises_refuted"
   ],
   "note": "Holds for the combination of flat graphs in which no variable is used twice and every elementwise operation has a compute string; fails otherwise (shared intermediate variables, registered outputs that are used, passthrough/print_var, RuntimeError while iterating), and combine_operations as such always raises AttributeError."
  },
  {
   "property": "C43",
   "status": "proved",
   "theorems": [
    "c43_recorded_once",
    "c43_design_variables",
    "c43_constraints",
    "c43_promoted_names",
    "c43_preorder_all_models",
    "c43_objective_unique",
    "c43_accepted",
    "c43_objective_accepted"
   ],
   "note": ""
  },
  {
   "property": "C44",
   "status": "partial",
   "theorems": [
    "C44_defined_once",
    "C44_after_a_parent",
    "C44_before_submodels",
    "C44_accepted_iff",
    "C44_shared_model_refuted",
    "C44_failed_build_refuted",
    "C44_with_block_refuted"
   ],
   "note": "Fails for shared models (defined before one of their parents), after failed builds and for with blocks (define is called again)."
  },
  {
   "property": "C45",
   "status": "proved",
   "theorems": [
    "c45_create_input",
    "c45_declare_variable",
    "c45_create_output",
    "c45_value_rejected"
   ],
   "note": ""
  },
  {
   "property": "C46",
   "status": "proved",
   "theorems": [
    "c46_valid_hierarchy_accepted"
   ],
   "note": ""
  },
  {
   "property": "C47",
   "status": "partial",
   "theorems": [
    "c47_size_attribute_partial",
    "c47_size_attribute_refuted",
    "c45_create_input",
    "c45_declare_variable"
   ],
   "note": "Holds, over every history, for inputs, declared variables and outputs of operations; false for create_output, whose size is always 1."
  },
  {
   "property": "C48",
   "status": "partial",
   "theorems": [
    "c48_accepted_names_partial",
    "c48_visible_names_refuted"
   ],
   "note": "Exact acceptance condition proved; the property is false for names promoted again above the declaring model."
  },
  {
   "property": "C49",
   "status": "partial",
   "theorems": [
    "c49_objective_twice_partial",
    "c49_objective_twice_refuted",
    "c49_model_kept",
    "c49_second_representation",
    "c49_second_objective",
    "c49_promoted_objective_twice",
    "c49_other_objective_refuted"
   ],
   "note": "Everything but the objective is the same; the second objective is characterised exactly, equal when it is declared by the main model or promoted to it; otherwise the second build may raise or silently name another variable."
  },
  {
   "property": "C50",
   "status": "proved",
   "theorems": [
    "c50_admissible_accepted",
    "c50_consistent_accepted"
   ],
   "note": ""
  },
  {
   "property": "C51",
   "status": "partial",
   "theorems": [
    "c51_duplicate_connection_refuted",
    "c19_connections"
   ],
   "note": "False; c19 (distinct targets) shows every repetition is rejected."
  },
  {
   "property": "C52",
   "status": "partial",
   "theorems": [
    "c52_mapping_partial",
    "c52_mapping_refuted",
    "c52_compiled_partial",
    "c52_compiled_others_partial",
    "c52_compiled_refuted"
   ],
   "note": "c52_compiled_*: the whole compilation, every iteration order; the mapped node is the node with the value. False, exactly characterised, for declared variables that share a supplied promoted name."
  },
  {
   "property": "C53",
   "status": "partial",
   "theorems": [
    "c53_operations_kept_partial",
    "c53_unnamed_submodel_refuted"
   ],
   "note": "Proved when all submodels are named; false for unnamed ones, whose name is the id of the next node."
  },
  {
   "property": "C54",
   "status": "proved",
   "theorems": [
    "c54_flat_graph_is_union"
   ],
   "note": "For every order in which the submodels are visited."
  },
  {
   "property": "C55",
   "status": "proved",
   "theorems": [
    "c55_promoted_names",
    "c55_generated_names"
   ],
   "note": "For every order in which the submodels are visited."
  },
  {
   "property": "C56",
   "status": "proved",
   "theorems": [
    "c56_declared_meets_source"
   ],
   "note": "Assumes that models use only their own variables, that named results are registered and that no chosen name is the id of one of the nodes of the program (c24_choosable_names: with at most 63^4 nodes any name without leading underscore); C53 and C57 show what happens otherwise."
  },
  {
   "property": "C57",
   "status": "partial",
   "theorems": [
    "c57_private_names_partial",
    "c57_private_names_refuted"
   ],
   "note": "Proved for variables the models list; false for unregistered outputs of custom operations in a submodel, which get the empty namespace."
  },
  {
   "property": "C58",
   "status": "partial",
   "theorems": [
    "c58_state_shape_partial",
    "c58_state_shape_refuted"
   ],
   "note": "Fails for a state of shape (1,) whose value is an array of another shape."
  },
  {
   "property": "C59",
   "status": "partial",
   "theorems": [
    "c59_defaults_partial",
    "c59_defaults_refuted"
   ],
   "note": "Refuted: numbers are dropped, arrays raise IndexError."
  },
  {
   "property": "C60",
   "status": "partial",
   "theorems": [
    "c60_brackets_partial",
    "c60_brackets_exactly",
    "c60_bracket_shape_refuted"
   ],
   "note": "Bounds are compared with each other but not with the state."
  },
  {
   "property": "C61",
   "status": "proved",
   "theorems": [
    "C61_reading",
    "C61_declared_names",
    "C61_items"
   ],
   "note": ""
  },
  {
   "property": "C62",
   "status": "proved",
   "theorems": [
    "C62_custom",
    "C62_no_second_use"
   ],
   "note": ""
  },
  {
   "property": "C63",
   "status": "partial",
   "theorems": [
    "C63_values_partial",
    "C63_shared_array_refuted"
   ],
   "note": "Holds when defaults are numbers or lists; a shared array is set to zero."
  },
  {
   "property": "C64",
   "status": "partial",
   "theorems": [
    "C64_solve",
    "C64_eigenvalues",
    "C64_sparsematmat",
    "C64_rotmat",
    "C64_quatrotvec_partial",
    "C64_quatrotvec_lengths_refuted"
   ],
   "note": "quatrotvec does not look at the last dimensions."
  },
  {
   "property": "C65",
   "status": "partial",
   "theorems": [
    "C65_diff_refuted"
   ],
   "note": "Refuted: diff raises for every array and axis."
  },
  {
   "property": "C66",
   "status": "partial",
   "theorems": [
    "C66_removes_nothing_refuted"
   ],
   "note": "Refuted: sort_nodes_nx returns every node, so nothing is removed, and the function then raises AttributeError."
  },
  {
   "property": "C67",
   "status": "proved",
   "theorems": [
    "c67_accepted_iff_valid"
   ],
   "note": "Bounds: numbers and one-dimensional arrays; names modelled over ASCII."
  },
  {
   "property": "C68",
   "status": "proved",
   "theorems": [
    "c68_effect_of_accepted_call"
   ],
   "note": "Submodels: see C12."
  },
  {
   "property": "C69",
   "status": "partial",
   "theorems": [
    "c69_inputs_to_outputs",
    "c69_outputs_to_inputs_partial",
    "c69_every_response_refuted",
    "c69_inputs_only_refuted"
   ],
   "note": "The first dictionary is characterised where names of final outputs are unique; its values are nodes (finding). Responses used by other operations and non-input leaves: refuted."
  },
  {
   "property": "C70",
   "status": "proved",
   "theorems": [
    "c70_inputs",
    "c70_outputs",
    "c70_partition",
    "c70_every_edge_counted"
   ],
   "note": "implicit=False; nested models are C71."
  },
  {
   "property": "C71",
   "status": "partial",
   "theorems": [
    "c71_variable_sizes",
    "c71_distribution",
    "c71_outputs",
    "c71_arguments",
    "c71_inputs_refuted",
    "c71_uses_refuted",
    "c71_operation_outputs_refuted",
    "c71_one_level_partial"
   ],
   "note": "Refuted for nin_vars, num_uses_of_variables, outputs_per_operation; c71_one_level_partial says what these compute."
  },
  {
   "property": "C72",
   "status": "proved",
   "theorems": [
    "c72_maximum",
    "c72_answers",
    "c72_raises"
   ],
   "note": "implicit=True, vectorized=True; with implicit=False the call raises (C75)."
  },
  {
   "property": "C73",
   "status": "proved",
   "theorems": [
    "c73_serial_cost",
    "c73_raises"
   ],
   "note": "What reading the number of iterations gives is part of the model's input."
  },
  {
   "property": "C74",
   "status": "partial",
   "theorems": [
    "c74_longest_walk",
    "c74_raises_iff_cyclic",
    "c74_operations_on_path_refuted"
   ],
   "note": "The documented number of operations is refuted; the result is characterised exactly."
  },
  {
   "property": "C75",
   "status": "partial",
   "theorems": [
    "c75_never_answered_refuted",
    "c75_averages_refuted",
    "c75_average_outputs_refuted"
   ],
   "note": "Refuted for every representation."
  },
  {
   "property": "C76",
   "status": "partial",
   "theorems": [
    "c76_operation",
    "c76_rejected",
    "c76_implicit",
    "c76_custom",
    "c76_custom_twice_refuted",
    "c76_read",
    "c76_assign",
    "c76_assignments",
    "c76_register"
   ],
   "note": "Exact effect of each expression-building call on all objects. False for results of a CustomOperation object that is used twice (c76_custom_twice_refuted)."
  },
  {
   "property": "C77",
   "status": "partial",
   "theorems": [
    "c77_accepted_exactly_when",
    "c77_recorded",
    "c77_declared_twice",
    "c77_rejected_declaration_refuted"
   ],
   "note": "Exact acceptance and effect for every history; the clause about rejected declarations is refuted."
  },
  {
   "property": "C78",
   "status": "partial",
   "theorems": [
    "c78_unprepared_no_effect",
    "c78_rejected_effect_partial",
    "c78_rejected_effect_refuted"
   ],
   "note": "Exact remaining effect of a rejected call; refuted as stated."
  },
  {
   "property": "C79",
   "status": "partial",
   "theorems": [
    "c79_brackets_ignore_settings",
    "c79_needs_linear_solver",
    "c79_defaults_stored_refuted"
   ],
   "note": "Refuted for bracketed searches, which ignore both."
  },
  {
   "property": "C80",
   "status": "partial",
   "theorems": [
    "c80_read_after_writes",
    "c80_names_of_a_variable",
    "c80_assignment_accepted",
    "c80_warning",
    "c80_dotted_names_refuted"
   ],
   "note": "The executable of the back end is modelled as a table from promoted names to values. Refuted for names containing dots."
  },
  {
   "property": "C81",
   "status": "proved",
   "theorems": [
    "c81_elementwise_functions"
   ],
   "note": "Over the real numbers of Coq.Reals; the functions of numpy are read as the real functions, undefined values as those of Coq.Reals."
  },
  {
   "property": "C82",
   "status": "partial",
   "theorems": [
    "c82_inverse_functions_partial",
    "c82_arsech_refuted",
    "c82_arcsch_refuted"
   ],
   "note": "Holds for arsinh, arcosh, artanh, arcoth; arsech is wrong for every argument strictly between 0 and 1 and arcsch returns None."
  },
  {
   "property": "C83",
   "status": "partial",
   "theorems": [
    "c83_exp_a",
    "c83_not_a_variable",
    "c83_string_partial",
    "c83_string_refuted"
   ],
   "note": "Values, shapes and rejections for every base; the string is right for numbers that are not negative, wrong for negative numbers, and no expression for arrays and variables."
  },
  {
   "property": "C84",
   "status": "partial",
   "theorems": [
    "c84_body_313_partial",
    "c84_other_shapes_refuted"
   ],
   "note": "Holds for angles of shape (1, 1); variables of every other shape, in particular the default shape (1,), are rejected with ValueError."
  },
  {
   "property": "C85",
   "status": "proved",
   "theorems": [
    "c85_rows",
    "c85_ends",
    "c85_rejected"
   ],
   "note": "Rational arithmetic instead of floating point; the sparse matrix is modelled as its rows."
  },
  {
   "property": "C86",
   "status": "proved",
   "theorems": [
    "C86_solver_options"
   ],
   "note": "recording_options, supports and descriptions are not modelled."
  },
  {
   "property": "C87",
   "status": "proved",
   "theorems": [
    "c87_program_solves_model",
    "c87_model_has_one_solution",
    "c87_order"
   ],
   "note": "Back ends are modelled as execution of the sorted operations on a memory with one cell per node. Assumes that models do not use each other's variables, that connections lead to declared variables, and (conditions of well_formed) that the objects are as the API makes them."
  },
  {
   "property": "C88",
   "status": "proved",
   "theorems": [
    "c88_accepted",
    "c88_enforced",
    "c88_exactly",
    "c88_any_order"
   ],
   "note": "Same conditions on the objects as C87; the converse assumes that no connection leads to an input (C20 shows that the code accepts some)."
  },
  {
   "property": "C89",
   "status": "proved",
   "theorems": [
    "c89_well_formed",
    "c89_end_to_end",
    "c89_any_order",
    "c89_tree"
   ],
   "note": "Shapes are given by a function of the objects; bounds, scalers, units and values of variables are left out of this model (ApiModel, ShapeModel have them)."
  },
  {
   "property": "C90",
   "status": "proved",
   "theorems": [
    "c90_connections",
    "c90_design",
    "c90_constraints",
    "c90_objective",
    "c90_submodels",
    "c90_inputs",
    "c90_outputs",
    "c90_isolated",
    "c90_hierarchy"
   ],
   "note": "Bounds, scalers, units and values are not part of this model (see ApiModel for one model)."
  },
  {
   "property": "C91",
   "status": "proved",
   "theorems": [
    "c91_program_agrees_with_script",
    "c91_end_to_end",
    "c91_any_order",
    "c91_from_the_end_refuted"
   ],
   "note": "Keys of assignments that are not tuples are covered for one-dimensional outputs; without the restriction on negative integers the claim is false (c91_from_the_end_refuted). Numbers form any field with a power function; the back end computes each recorded operation as its documentation says."
  },
  {
   "property": "C92",
   "status": "proved",
   "theorems": [
    "c92_arithmetic",
    "c92_plus",
    "c92_other",
    "c92_read_accepted",
    "c92_reads_shared",
    "c92_assignment_accepted",
    "c92_assignments_disjoint"
   ],
   "note": "Scripts of ScriptModel; integer keys of assignments count from the front (see C07). Literal arrays of a wrong shape are not rejected in the model (variable.py does not check them when the operation is made)."
  },
  {
   "property": "C93",
   "status": "partial",
   "theorems": [
    "c93_indices_by_name_partial",
    "c93_assigned_once_partial",
    "c93_indices_by_name_refuted"
   ],
   "note": "False in general: a variable registered after it was assigned keeps its entry under the old name and can be assigned again (c93_indices_by_name_refuted). Proved when the variable is not registered afterwards."
  },
  {
   "property": "C94",
   "status": "partial",
   "theorems": [
    "C94_copy_partial",
    "C94_copy_order",
    "C94_copy_reads_alike_refuted"
   ],
   "note": "False: parameters declared with recordable=False are missing in a copy (C94_copy_reads_alike_refuted). Proved: exactly those are missing, everything else reads and accepts alike, in the same order."
  },
  {
   "property": "C95",
   "status": "proved",
   "theorems": [
    "C95_derivative_data"
   ],
   "note": ""
  },
  {
   "property": "C96",
   "status": "proved",
   "theorems": [
    "c96_expression_names",
    "c96_submodel_names",
    "c96_names_determined",
    "c96_print_object",
    "c96_created_object"
   ],
   "note": ""
  },
  {
   "property": "C97",
   "status": "proved",
   "theorems": [
    "c97_block",
    "c97_blocks_are_adds",
    "c97_history"
   ],
   "note": "A call that raises inside a block is a statement without effect followed by the exception."
  },
  {
   "property": "C98",
   "status": "partial",
   "theorems": [
    "c98_recorded_dependencies_partial",
    "c98_recorded_dependencies_refuted",
    "c98_depends_on_state_refuted",
    "c98_exact",
    "c98_every_order_partial",
    "c98_recorded_is_used_partial"
   ],
   "note": "c98_exact says exactly when the recorded names are complete, for every iteration order. Proved when every variable the expression of the residual uses is given from outside. False otherwise: what reaches the residual through a submodel or a connection of the internal model is not recorded, and a state that does so is rejected."
  },
  {
   "property": "C99",
   "status": "proved",
   "theorems": [
    "c99_same_acceptance",
    "c99_meaning",
    "c99_same_values",
    "c99_same_names",
    "c99_same_operations"
   ],
   "note": "The iteration orders are parameters of the model (IterModel); conditions on the objects as for C87."
  },
  {
   "property": "C100",
   "status": "partial",
   "theorems": [
    "c100_initial_value_partial",
    "c100_initial_value_refuted"
   ],
   "note": "Proved when the explicit values (and the default ones) of the declarations at equal levels agree. False otherwise: two submodels that give the same promoted variable different values compile, and which value is used depends on the order of the set of submodels."
  },
  {
   "property": "C101",
   "status": "partial",
   "theorems": [
    "c101_same_spellings",
    "c101_reshape",
    "c101_flatten_partial",
    "c101_flatten_refuted"
   ],
   "note": "reshape as stated; flatten works for every variable except outputs of create_output with more than one element, which raise ValueError because their size attribute is 1 (C47). Negative lengths: see C40_reshape_negative_refuted."
  },
  {
   "property": "C102",
   "status": "proved",
   "theorems": [
    "c102_bessel"
   ],
   "note": "Numbers equal to 1 or 2 (True, 1.0) count as these kinds."
  },
  {
   "property": "C103",
   "status": "proved",
   "theorems": [
    "c103_errors",
    "c103_programs",
    "c103_every_order"
   ],
   "note": "For models in the sense of well_formed (C89: every program that follows the rules of WorldSpec makes one). c103_every_order assumes that no input is the target of a connection."
  },
  {
   "property": "C104",
   "status": "proved",
   "theorems": [
    "c104_found",
    "c104_values"
   ],
   "note": "For models in the sense of well_formed (C89), with no input as the target of a connection. The executable of a backend is modelled by CompileModel.run; the redirection of a merged node to its source is the backend's reading of connected_tgt_nodes_to_source_nodes."
  },
  {
   "property": "C105",
   "status": "partial",
   "theorems": [
    "c105_recorded",
    "c105_design_variables",
    "c105_constraints_objective_partial",
    "c105_unused_refuted"
   ],
   "note": "Design variables in full. A constraint (or objective) on a declared variable that nothing uses is accepted, and no value can be read for it: c105_unused_refuted."
  },
  {
   "property": "C106",
   "status": "proved",
   "theorems": [
    "c106_values",
    "c106_exact",
    "c106_graph"
   ],
   "note": "For models in the sense of well_formed (C89), with no input as the target of a connection. Dependence is defined on the model (DependSpec.depends), without the graph."
  },
  {
   "property": "C107",
   "status": "proved",
   "theorems": [
    "c107_influences"
   ],
   "note": "The property is stated for models whose operations all have arguments: an operation without arguments is listed as if it were an input (c69_inputs_only_refuted). ViewModel shows the flat graph of a compiled model to the queries of QueryModel."
  },
  {
   "property": "C108",
   "status": "proved",
   "theorems": [
    "c108_values",
    "c108_supply",
    "c108_accepted",
    "c108_alone_refuted"
   ],
   "note": "For models in the sense of well_formed (C89), with no input as the target of a connection. The condition on connections in the last sentence is needed: c108_alone_refuted."
  },
  {
   "property": "C109",
   "status": "proved",
   "theorems": [
    "c109_program",
    "c109_hierarchy",
    "c109_supplied_refuted",
    "c109_assigned_refuted"
   ],
   "note": "For programs that follow the rules of C89, with no input as the target of a connection. The conditions on what is supplied and on assignments are needed: c109_supplied_refuted, c109_assigned_refuted."
  },
  {
   "property": "C110",
   "status": "proved",
   "theorems": [
    "c110_program",
    "c110_hierarchy_values",
    "c110_hierarchy_accepted"
   ],
   "note": "For programs that follow the rules of C89, with no input as the target of a connection; the claim about acceptance is for models with sizes that agree and promotes lists that name variables, as in C88."
  },
  {
   "property": "C111",
   "status": "proved",
   "theorems": [
    "c111_program",
    "c111_program_accepted",
    "c111_hierarchy",
    "c111_accepted"
   ],
   "note": "c111_program holds for every program; the claim about acceptance is for programs that follow the rules of C89."
  },
  {
   "property": "C112",
   "status": "proved",
   "theorems": [
    "c112_program",
    "c112_hierarchy"
   ],
   "note": "For programs that follow the rules of C89, with no input as the target of a connection, and models that compile on their own (C108 says which do)."
  },
  {
   "property": "C113",
   "status": "proved",
   "theorems": [
    "c113_program",
    "c113_hierarchy",
    "c113_storage"
   ],
   "note": "For programs that follow the rules of C89, with no input as the target of a connection, where both hierarchies compile."
  },
  {
   "property": "C114",
   "status": "proved",
   "theorems": [
    "c114_program",
    "c114_same_objects",
    "c114_hierarchy"
   ],
   "note": "For programs that follow the rules of C89, with no input as the target of a connection, where both hierarchies compile."
  },
  {
   "property": "C115",
   "status": "proved",
   "theorems": [
    "c115_program",
    "c115_hierarchy"
   ],
   "note": "For programs that follow the rules of C89, with no input as the target of a connection, where both hierarchies compile. The two examples move an operation to a submodel and share an intermediate result."
  },
  {
   "property": "C116",
   "status": "proved",
   "theorems": [
    "c116_values",
    "c116_compiles",
    "c116_tree",
    "c116_program"
   ],
   "note": "For hierarchies and, through the calls that build them, for programs. For models in the sense of well_formed (C89), with no input as the target of a connection; the claim about compilation is for models with sizes that agree and promotes lists that name variables, as in C88."
  }
 ]
}