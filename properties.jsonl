{"id": "C01", "title": "Node identifiers never repeat", "statement": "Every variable, operation and submodel node created in a process receives an identifier that no other node of that process has; in particular two intermediate variables the user did not name are never the same node in the representation.", "quantifier": "all pairs of distinct creation indices (any number of nodes created so far)", "why_tests_cant": "Only a finite number of indices can be sampled; distinctness is a claim about all pairs of an unbounded counter, including the float division used to peel digits.", "anchors": ["csdl/utils/gen_hex_name.py:gen_hex_name", "csdl/lang/node.py:Node.__init__"]}
{"id": "C02", "title": "An automatically named submodel is never confused with another node", "statement": "When a submodel is added without a name, the name generated for it differs from the identifier of every operation and unnamed variable of the parent model, so the operation nodes of the parent stay in the graph.", "quantifier": "all creation histories in which a submodel is added without a name and further nodes are created afterwards", "why_tests_cant": "The collision depends on which node happens to be created right after the call; a test fixes one history.", "anchors": ["csdl/lang/subgraph.py:Subgraph.__init__", "csdl/rep/construct_unflat_graph.py:get_graph_node", "csdl/rep/construct_unflat_graph.py:construct_graphs_all_models"]}
{"id": "C03", "title": "Accepted names make dotted paths unambiguous", "statement": "A name accepted by create_input, create_output, register_output or add contains only letters, digits and underscores; hence two different paths (submodel names followed by a variable name) never print as the same dotted name.", "quantifier": "all names and all pairs of paths of any length", "why_tests_cant": "Unboundedly many strings and path lengths.", "anchors": ["csdl/utils/check_banned_chars.py", "csdl/utils/prepend_namespace.py", "csdl/lang/model.py:Model.create_input", "csdl/lang/model.py:Model.register_output", "csdl/lang/model.py:Model.add"]}
{"id": "C04", "title": "Slices select the elements Python slicing selects", "statement": "Whenever a slice is accepted in an indexing key along an axis of length n, the elements it selects are exactly the ones range(n)[start:stop:step] selects, in that order, and all are valid positions on the axis.", "quantifier": "all start, stop, step (or None) and all axis lengths", "why_tests_cant": "Three unbounded integers plus an unbounded axis length, with sign-dependent corner cases.", "anchors": ["csdl/utils/slice_to_list.py:slice_to_list", "csdl/lang/node.py:slice_to_tuple"]}
{"id": "C05", "title": "Multi-axis keys address the row-major sub-array", "statement": "For a key with one entry per axis, the flat source indices recorded for x[key] are exactly the row-major positions of the selected multi-indices, listed in row-major order of the result; they are in range, distinct when the per-axis selections are duplicate free, and their number equals the number of elements of the result.", "quantifier": "all shapes of any rank and all per-axis selections", "why_tests_cant": "Unbounded rank and sizes; the claim is an equation between an index calculus and a mathematical enumeration.", "anchors": ["csdl/lang/variable.py:Variable.__getitem__", "csdl/lang/concatenation.py:Concatenation.__setitem__", "csdl/utils/get_array_indices.py"]}
{"id": "C06", "title": "Reading the same slice twice yields the same variable", "statement": "For any sequence of reads x[k1], x[k2], ... of one variable, two reads with the same normalised key return the same variable, two reads with different keys return different variables, and the source indices recorded for a key never change afterwards.", "quantifier": "all finite sequences of reads with arbitrary keys", "why_tests_cant": "History dependent: must hold after every interleaving of reads.", "anchors": ["csdl/lang/variable.py:Variable.__getitem__"]}
{"id": "C07", "title": "Indexed assignments never overlap", "statement": "After any history of indexed assignments to an output created by create_output, the accepted assignments occupy pairwise disjoint sets of in-range positions, each assigned variable has as many elements as the positions it occupies, and no variable name is assigned twice.", "quantifier": "all shapes and all finite histories of accepted and rejected assignments", "why_tests_cant": "Invariants over unbounded histories.", "anchors": ["csdl/lang/concatenation.py:Concatenation.__setitem__"]}
{"id": "C08", "title": "A rejected indexed assignment has no effect", "statement": "If an indexed assignment raises, the output is left as it was before the call: the same positions are considered assigned and the same variables recorded.", "quantifier": "all states reachable by assignments and all rejected assignments", "why_tests_cant": "Every failure point of every state; tests only look at one exception.", "anchors": ["csdl/lang/concatenation.py:Concatenation.__setitem__"]}
{"id": "C09", "title": "A variable name identifies one variable of a model", "statement": "After any sequence of calls to create_input, declare_variable, create_output and register_output that does not raise, no two of the model's inputs and outputs share a name, and no output shares a name with a variable declared in the model.", "quantifier": "all call sequences with arbitrary names", "why_tests_cant": "Order dependent: only particular interleavings break it.", "anchors": ["csdl/lang/model.py:Model.create_input", "csdl/lang/model.py:Model.declare_variable", "csdl/lang/model.py:Model.create_output", "csdl/lang/model.py:Model.register_output"]}
{"id": "C10", "title": "A rejected model-building call has no effect on the model", "statement": "If create_input, declare_variable, create_output, register_output, add, connect, add_objective, add_design_variable or add_constraint raises, the variables, outputs, submodels, connections and optimisation data of the model are exactly what they were before the call.", "quantifier": "all reachable model states and all rejected calls", "why_tests_cant": "Every failure point of every state.", "anchors": ["csdl/lang/model.py:Model"]}
{"id": "C11", "title": "Optimisation data of a model is consistent", "statement": "In every reachable model: there is at most one objective and it never changes once set; every design variable is a name of an input created before, declared once; every constraint name is declared once and its lower bound is nowhere greater than its upper bound; a connection is never recorded twice nor from a name to itself.", "quantifier": "all call histories", "why_tests_cant": "Invariant over unbounded histories.", "anchors": ["csdl/lang/model.py:Model.add_objective", "csdl/lang/model.py:Model.add_design_variable", "csdl/lang/model.py:Model.add_constraint", "csdl/lang/model.py:Model.connect", "csdl/utils/check_constraint_value_type.py"]}
{"id": "C12", "title": "Submodels are found under the name they were added with", "statement": "In every reachable model no two submodels that were given names explicitly share a name, and submodels are kept in the order they were added.", "quantifier": "all call histories", "why_tests_cant": "Invariant over unbounded histories.", "anchors": ["csdl/lang/model.py:Model.add"]}
{"id": "C13", "title": "Promotion gives every variable exactly one promoted name", "statement": "When promotion succeeds, the map from promoted names to sets of unpromoted names partitions the set of all variable paths of the hierarchy: every path of every input, output and declared variable of every submodel belongs to exactly one promoted name and nothing else belongs to any; the map from unpromoted to promoted names is its inverse.", "quantifier": "all model hierarchies of any depth and breadth with arbitrary promotes lists", "why_tests_cant": "Recursive over unbounded trees.", "anchors": ["csdl/rep/resolve_promotions.py:resolve_promotions", "csdl/rep/graph_representation.py:generate_unpromoted_promoted_maps", "csdl/rep/graph_representation.py:create_reverse_map"]}
{"id": "C14", "title": "Promoted names follow the promotes rule", "statement": "The promoted name of a variable is obtained from its path by the documented rule: at each level a name without a namespace is lifted to the parent when the submodel is added with promotes=None or with that name in its promotes list, and is prefixed by the submodel name otherwise; once prefixed it is prefixed at every level above.", "quantifier": "all hierarchies and all variables in them", "why_tests_cant": "Recursive over unbounded trees.", "anchors": ["csdl/rep/resolve_promotions.py:resolve_promotions"]}
{"id": "C15", "title": "Two sources never share a promoted name", "statement": "If building the representation succeeds, no two distinct inputs/outputs located in different (sub)models have the same promoted name.", "quantifier": "all hierarchies", "why_tests_cant": "Unbounded trees, any pair of levels.", "anchors": ["csdl/rep/resolve_promotions.py:resolve_promotions", "csdl/utils/check_duplicate_keys.py"]}
{"id": "C16", "title": "Variables sharing a promoted name have the same number of elements", "statement": "If building the representation succeeds, any two variables with the same promoted name have the same number of elements.", "quantifier": "all hierarchies and all pairs of variables", "why_tests_cant": "Unbounded trees, any pair of levels.", "anchors": ["csdl/rep/resolve_promotions.py:resolve_promotions", "csdl/utils/find_keys_with_matching_values.py"]}
{"id": "C17", "title": "Invalid promotes are rejected", "statement": "If a submodel is added with a promotes list naming something that is not a promotable variable of that submodel, building the representation raises.", "quantifier": "all hierarchies and promotes lists", "why_tests_cant": "The offending name may coincide with a name elsewhere in the hierarchy; only exhaustive reasoning settles all coincidences.", "anchors": ["csdl/rep/resolve_promotions.py:resolve_promotions"]}
{"id": "C18", "title": "Every declared connection reaches the representation exactly once", "statement": "The connections considered when flattening are the ones declared with connect in the model and all its submodels, each with the namespace of the model that declared it prefixed, submodels before their parent; after translation to promoted names duplicates are removed and first-occurrence order is kept.", "quantifier": "all hierarchies and connection lists", "why_tests_cant": "Unbounded trees.", "anchors": ["csdl/rep/collect_connections.py:collect_connections", "csdl/rep/graph_representation.py:GraphRepresentation.__init__"]}
{"id": "C19", "title": "Connections are single-source, typed and size-consistent", "statement": "If applying the connections succeeds then no two accepted connections have the same target, every source is an input or output, source and target have equal numbers of elements, and no target is computed by an operation.", "quantifier": "all graphs and connection lists", "why_tests_cant": "Unbounded graphs and lists; the failing order may be any.", "anchors": ["csdl/rep/merge_connections.py:merge_connections"]}
{"id": "C20", "title": "A connection target must be a declared variable", "statement": "Connecting to a variable that is not a declared variable (for instance to an input created with create_input) raises.", "quantifier": "all graphs and connections", "why_tests_cant": "Universal claim on all kinds of target.", "anchors": ["csdl/rep/merge_connections.py:merge_connections"]}
{"id": "C21", "title": "Connecting redirects every consumer", "statement": "After a connection from s to t is applied, t is no longer in the graph, every operation that read t reads s, and no other dependency is added or lost.", "quantifier": "all graphs, nodes and connection lists", "why_tests_cant": "Unbounded graphs.", "anchors": ["csdl/rep/merge_connections.py:merge_connections"]}
{"id": "C22", "title": "The graph of a model contains exactly what its outputs depend on", "statement": "The graph built for one model contains every input, every registered output and every variable and operation they transitively depend on (plus all outputs of those operations), has an edge for each dependency, contains nothing else, and the traversal terminates.", "quantifier": "all finite expression graphs, with sharing, multi-output operations and even cyclic references", "why_tests_cant": "Arbitrary graph shapes; the traversal order is stack-like and must not matter.", "anchors": ["csdl/rep/construct_unflat_graph.py:construct_graph_this_model", "csdl/rep/construct_unflat_graph.py:get_graph_node"]}
{"id": "C23", "title": "Unused declared variables are part of the representation", "statement": "A variable declared with declare_variable is a node of the model's graph even when no expression uses it.", "quantifier": "all models", "why_tests_cant": "Universal claim.", "anchors": ["csdl/rep/construct_unflat_graph.py:construct_graphs_all_models"]}
{"id": "C24", "title": "The graph alternates variables and operations and each variable has one producer", "statement": "Every edge of a model's graph goes from a variable to an operation or from an operation to a variable, and every variable that is not a concatenation has at most one incoming edge.", "quantifier": "all histories of expression building", "why_tests_cant": "Invariant over unbounded expression histories.", "anchors": ["csdl/lang/variable.py:Variable.add_dependency_node", "csdl/lang/operation.py:Operation.add_dependency_node", "csdl/rep/construct_unflat_graph.py:construct_graph_this_model"]}
{"id": "C25", "title": "Automatic connection leaves one node per promoted name", "statement": "After automatic connection in the flattened graph, all declared variables with the same promoted name have been merged into a single node, that node is merged into the input or output with that promoted name if there is one, and every operation that read any of them reads the surviving node.", "quantifier": "all flattened graphs", "why_tests_cant": "Unbounded graphs.", "anchors": ["csdl/rep/construct_flat_graph.py:merge_automatically_connected_nodes"]}
{"id": "C26", "title": "The declared variable closest to the root provides the default value", "statement": "When several declared variables share a promoted name and no source provides it, the one declared in the model closest to the root survives.", "quantifier": "all flattened graphs", "why_tests_cant": "Universal claim over depths and orders.", "anchors": ["csdl/rep/construct_flat_graph.py:merge_automatically_connected_nodes"]}
{"id": "C27", "title": "The execution order respects every dependency", "statement": "When the representation is built, the sorted nodes are a permutation of the flat graph's nodes in which every node comes after all its predecessors; if the flat graph has a cycle, an error is raised instead, and an error is never raised for an acyclic graph.", "quantifier": "all finite directed graphs", "why_tests_cant": "All graphs of all sizes.", "anchors": ["csdl/rep/sort_nodes_nx.py:sort_nodes_nx", "csdl/rep/graph_representation.py:GraphRepresentation.__init__"]}
{"id": "C28", "title": "Operators on variables denote the arithmetic they look like", "statement": "The operation recorded for -x, x+y, x-y, x*y, x/y, x**c, c+x, c-x, c*x, c/x (variables or numbers) and for csdl.f(x) with f one of the elementwise functions denotes the same function of the operand values as the Python expression, and the result has the shape of the operands; binary operators on variables of different shapes raise.", "quantifier": "all nestings of operators and all operand values", "why_tests_cant": "All expression trees and all values.", "anchors": ["csdl/lang/variable.py:Variable.__add__", "csdl/operations/linear_combination.py", "csdl/operations/power_combination.py"]}
{"id": "C29", "title": "Generated expression strings denote the operation", "statement": "The compute string generated for a linear combination with scalar coefficients evaluates to the linear combination itself for every assignment of its arguments.", "quantifier": "all coefficient lists, constants and argument values", "why_tests_cant": "All real coefficients; sign and magnitude cases.", "anchors": ["csdl/operations/linear_combination.py:linear_combination.define_compute_strings", "csdl/operations/power_combination.py:power_combination.define_compute_strings"]}
{"id": "C30", "title": "Operations never depend twice on the same variable", "statement": "Applying a standard operation to a list of arguments with repetitions yields an operation whose dependencies are pairwise distinct variables carrying the same values, in the same order.", "quantifier": "all argument lists", "why_tests_cant": "All lists with any repetition pattern.", "anchors": ["csdl/lang/standard_operation.py:StandardOperation.__init__"]}
{"id": "C31", "title": "Implicit operations pair each state with its residual", "statement": "When an implicit operation is accepted, states and residuals are paired one-to-one with equal shapes, every state is a declared variable its residual depends on, every residual is a registered output, every argument is a declared variable with the same shape, there are no inputs in the implicit model, and each residual is mapped to exactly the arguments and states its expression depends on.", "quantifier": "all implicit models and argument lists", "why_tests_cant": "All expression graphs and name lists.", "anchors": ["csdl/lang/model.py:Model._generate_maps_for_implicit_operation"]}
{"id": "C32", "title": "Residual dependencies are exactly the reachable leaves", "statement": "The set of variables computed for a residual is exactly the set of variables without dependencies from which the residual is reachable (paths through a variable that has the residual's own name excepted).", "quantifier": "all finite expression graphs with sharing or cycles", "why_tests_cant": "All graphs.", "anchors": ["csdl/utils/collect_terminals.py:collect_terminals"]}
{"id": "C33", "title": "Implicit operations return exposed variables in the requested order", "statement": "The variables returned by an implicit operation are the states in declaration order followed by the exposed variables in the order of the expose argument.", "quantifier": "all implicit models and expose lists", "why_tests_cant": "All orders.", "anchors": ["csdl/lang/model.py:Model._return_implicit_outputs"]}
{"id": "C34", "title": "Readable parameters are always valid", "statement": "After any history of declare, set, update and undeclare on a Parameters dictionary in which some calls may raise, every value that was set explicitly and can be read satisfies the declared values/types/bounds/check, and a read-only parameter can never be set.", "quantifier": "all call histories", "why_tests_cant": "Invariant over unbounded histories.", "anchors": ["csdl/utils/parameters.py:Parameters"]}
{"id": "C35", "title": "Parameter update is all-or-nothing", "statement": "If Parameters.update raises, no parameter has changed.", "quantifier": "all reachable states and update dictionaries", "why_tests_cant": "Every failure point.", "anchors": ["csdl/utils/parameters.py:Parameters.update"]}
{"id": "C36", "title": "Derivative declarations cover exactly the requested pairs", "statement": "After any accepted sequence of declare_derivatives calls the declared pairs are exactly the union of the requested (of, wrt) pairs with '*' standing for all outputs/inputs; a pair is never declared twice.", "quantifier": "all custom operations and call sequences", "why_tests_cant": "All sequences and name sets.", "anchors": ["csdl/lang/custom_operation.py:CustomOperation.declare_derivatives"]}
{"id": "C37", "title": "Custom operation variables have unique names", "statement": "In every reachable custom operation no name is both an input and an output and no name is declared twice; the number of arguments and outputs equals the number of declared names.", "quantifier": "all call histories", "why_tests_cant": "Invariant over unbounded histories.", "anchors": ["csdl/lang/custom_operation.py:CustomOperation.add_input", "csdl/lang/custom_operation.py:CustomOperation.add_output"]}
{"id": "C38", "title": "Einsum result shapes are right", "statement": "The shape computed for einsum is, for each output index letter, the length of the operand axis carrying that letter, and is (1,) for a scalar result; it does not depend on which operand is looked at when the operands agree.", "quantifier": "all subscripts and operand shapes", "why_tests_cant": "All strings, ranks and sizes.", "anchors": ["csdl/utils/einsum_utils.py:compute_einsum_shape", "csdl/utils/einsum_utils.py:einsum_subscripts_tolist"]}
{"id": "C39", "title": "The index-object einsum API agrees with the string API", "statement": "The subscript string generated for index objects uses equal letters exactly for equal indices, so both APIs describe the same contraction.", "quantifier": "all lists of index tuples", "why_tests_cant": "All patterns of repeated indices.", "anchors": ["csdl/utils/einsum_utils.py:new_einsum_subscripts_to_string_and_list"]}
{"id": "C40", "title": "Shape transformations preserve or produce the documented shapes", "statement": "reshape and flatten preserve the number of elements, transpose and reorder_axes permute the axes (transpose being its own inverse), outer concatenates shapes, inner removes the contracted axes, sum/average/max/min remove exactly the reduced axes, expand repeats along exactly the listed axes.", "quantifier": "all shapes of all ranks and all axis lists", "why_tests_cant": "Unbounded rank and sizes.", "anchors": ["csdl/std/reshape.py", "csdl/std/transpose.py", "csdl/std/reorder_axes.py", "csdl/std/outer.py", "csdl/std/inner.py", "csdl/std/sum.py", "csdl/std/expand.py"]}
{"id": "C41", "title": "Dimension mismatches in matrix products are rejected", "statement": "matmat(A, B) raises unless the number of columns of A equals the number of rows of B; matvec likewise.", "quantifier": "all shapes", "why_tests_cant": "All sizes.", "anchors": ["csdl/std/matmat.py", "csdl/std/matvec.py"]}
{"id": "C42", "title": "Combining operations preserves the value of every remaining variable", "statement": "Merging chains of elementwise operations leaves every registered output with the same value as before.", "quantifier": "all graphs and all input values", "why_tests_cant": "All graph shapes, in particular shared intermediate variables.", "anchors": ["csdl/opt/combine_operations.py"]}
{"id": "C43", "title": "Optimisation data of the whole hierarchy is resolved uniquely", "statement": "If the representation is built, each design variable and constraint of the hierarchy is recorded under its promoted name in the main model, no two of them under the same name, none lost, and there is at most one objective in the hierarchy.", "quantifier": "all hierarchies", "why_tests_cant": "Unbounded trees.", "anchors": ["csdl/rep/collect_design_variables.py", "csdl/rep/collect_constraints.py", "csdl/rep/find_objective.py"]}
{"id": "C44", "title": "Each model is defined once, before its submodels, and is never empty", "statement": "Building a representation calls define exactly once on every model object of the hierarchy not yet defined, calls it before those of the submodels it adds, and raises for a model that ends up without variables and submodels or with an unassigned create_output variable.", "quantifier": "all hierarchies, including shared model objects", "why_tests_cant": "Unbounded trees with sharing.", "anchors": ["csdl/lang/define_models_recursively.py:define_models_recursively"]}
{"id": "C45", "title": "Shape and default value of a variable agree", "statement": "Whenever a variable is created successfully with an array value, the value's shape equals the variable's shape; a scalar value is broadcast to the shape.", "quantifier": "all shapes and values", "why_tests_cant": "All shapes.", "anchors": ["csdl/utils/get_shape_val.py:get_shape_val"]}
{"id": "C46", "title": "A hierarchy that obeys the promotion rules is accepted", "statement": "If names are legal, no two sources of different models share a promoted name, all variables sharing a promoted name have equal sizes and every promotes entry names a variable visible in its submodel, then promotion resolution does not raise.", "quantifier": "all model trees", "why_tests_cant": "Absence of spurious errors over unbounded trees.", "anchors": ["csdl/rep/resolve_promotions.py:resolve_promotions"]}
{"id": "C47", "title": "The size attribute of a variable is the number of its elements", "statement": "For every variable returned by create_input, declare_variable and create_output, the size attribute equals the product of its shape, so flatten accepts it.", "quantifier": "all variables, shapes and values", "why_tests_cant": "All shapes and default values.", "anchors": ["csdl/lang/variable.py:Variable.__init__", "csdl/lang/concatenation.py:Concatenation.__init__", "csdl/std/reshape.py:flatten"]}
{"id": "C48", "title": "A name visible in a model can be used there", "statement": "If a variable is known in a model under some (promoted) name, then connect, add_constraint and add_objective called in that model accept that name when the representation is built.", "quantifier": "all hierarchies, models, promotions and names", "why_tests_cant": "All combinations of promotion levels.", "anchors": ["csdl/utils/find_promoted_name.py:find_promoted_name", "csdl/rep/graph_representation.py:GraphRepresentation.__init__", "csdl/rep/collect_constraints.py:collect_constraints", "csdl/rep/find_objective.py:find_objective"]}
{"id": "C49", "title": "Building the representation of a model twice gives the same optimisation problem", "statement": "If GraphRepresentation(model) succeeds, building it again from the same model object succeeds and gives the same representation: objective, design variables, constraints, connections, maps of names, graph and order of execution.", "quantifier": "all hierarchies, all placements of the objective", "why_tests_cant": "Hidden state left in the model objects by the first build.", "anchors": ["csdl/rep/find_objective.py:find_objective"]}
{"id": "C50", "title": "Connections that obey the rules are accepted", "statement": "If every name used in the connections denotes a variable, the targets are distinct declared variables without producer, the sources are inputs or outputs and the numbers of elements agree, then applying the connections succeeds.", "quantifier": "all flattened graphs and connection lists", "why_tests_cant": "Completeness over unbounded graphs; tests only show single accepted cases.", "anchors": ["csdl/rep/merge_connections.py:merge_connections"]}
{"id": "C51", "title": "Declaring the same connection twice is harmless", "statement": "A connection declared both in a model and in one of its submodels (under names that denote the same two variables) is applied once, as the removal of duplicate connections in the representation suggests.", "quantifier": "all hierarchies and connection lists", "why_tests_cant": "Interaction of two passes over arbitrary hierarchies.", "anchors": ["csdl/rep/graph_representation.py:GraphRepresentation.__init__", "csdl/rep/merge_connections.py:merge_connections"]}
{"id": "C52", "title": "Every variable of the user's model is mapped to a node of the flat graph", "statement": "After the representation is built, the node recorded for a variable (attribute rep_node) is a node of the flattened graph.", "quantifier": "all hierarchies", "why_tests_cant": "Chains of merges of unbounded length.", "anchors": ["csdl/lang/variable.py:Variable.add_IR_mapping", "csdl/rep/construct_flat_graph.py:merge_automatically_connected_nodes", "csdl/rep/merge_connections.py:merge_connections"]}
{"id": "C53", "title": "Adding a submodel does not affect the model's own operations", "statement": "After add (with or without a name for the submodel) every operation the registered outputs depend on is still a node of the graph of the model.", "quantifier": "all histories of calls on a model", "why_tests_cant": "Depends on the generated identifiers of all nodes created before and after.", "anchors": ["csdl/lang/subgraph.py:Subgraph.__init__", "csdl/rep/construct_unflat_graph.py:get_graph_node", "csdl/lang/node.py:Node.__init__"]}
{"id": "C54", "title": "Flattening keeps every operation and dependency of every model", "statement": "The nodes (edges) of the flattened graph before connections are applied are exactly the nodes (edges) of the graphs of all models in the hierarchy, without the nodes that stand for submodels.", "quantifier": "all hierarchies of models, of any depth", "why_tests_cant": "Recursion over hierarchies of unbounded depth and width.", "anchors": ["csdl/rep/construct_flat_graph.py:merge_graphs"]}
{"id": "C55", "title": "Nodes carry the promoted name of their variable", "statement": "In the flattened graph the promoted name of every input, registered output and declared variable is the one given by the promotion rule (the namespace of the outermost model the name is lifted to), and its unpromoted namespace is the path of the model that created it; unnamed results keep their generated name.", "quantifier": "all hierarchies and promotes lists", "why_tests_cant": "Two recursive passes must agree on every hierarchy.", "anchors": ["csdl/rep/construct_flat_graph.py:merge_graphs", "csdl/rep/graph_representation.py:GraphRepresentation.__init__", "csdl/rep/resolve_promotions.py:resolve_promotions"]}
{"id": "C56", "title": "Promotion connects declared variables with their source, from end to end", "statement": "For every hierarchy that passes promotion resolution, flattening and automatic connection succeed; a declared variable anywhere in the hierarchy is replaced by the input or output with the same promoted name, declared variables with the same promoted name and no source become one node, and nothing else is merged.", "quantifier": "all hierarchies whose models only use their own variables and do not use generated names", "why_tests_cant": "Composition of promotion resolution, graph construction, flattening and merging over all hierarchies.", "anchors": ["csdl/rep/graph_representation.py:GraphRepresentation.__init__", "csdl/rep/construct_flat_graph.py:construct_flat_graph", "csdl/rep/construct_unflat_graph.py:construct_graphs_all_models", "csdl/rep/resolve_promotions.py:resolve_promotions"]}
{"id": "C57", "title": "Names a submodel does not promote stay private", "statement": "A variable that exists only in a submodel and is not promoted never gets connected to a variable of the same name in another model.", "quantifier": "all hierarchies", "why_tests_cant": "Quantifies over all hierarchies and all unregistered results.", "anchors": ["csdl/rep/construct_flat_graph.py:merge_graphs", "csdl/rep/construct_flat_graph.py:merge_automatically_connected_nodes", "csdl/std/custom.py:custom"]}
{"id": "C58", "title": "States come back with the shape of the state", "statement": "The variable an implicit operation returns for a state has the shape of the state declared in the internal model.", "quantifier": "all internal models, states and initial values", "why_tests_cant": "All shapes and values.", "anchors": ["csdl/lang/model.py:Model._return_implicit_outputs", "csdl/utils/get_shape_val.py:get_shape_val"]}
{"id": "C59", "title": "Default values for states are kept", "statement": "Every value passed in defaults when an implicit operation is applied is stored with the operation.", "quantifier": "all internal models, states and defaults", "why_tests_cant": "All models and values; no test passes defaults.", "anchors": ["csdl/lang/model.py:Model._implicit_operation"]}
{"id": "C60", "title": "Brackets are complete and fit the states", "statement": "A bracketed search is accepted only when every state has a bracket of two bounds whose shapes equal each other and the shape of the state.", "quantifier": "all sets of states and brackets", "why_tests_cant": "All combinations of bounds and shapes.", "anchors": ["csdl/lang/model.py:Model._bracketed_search", "csdl/lang/implicit_operation_factory.py:ImplicitOperationFactory.declare_state"]}
{"id": "C61", "title": "Reading a parameter is determined by the calls before it", "statement": "Reading an undeclared parameter raises KeyError, a declared one without value RuntimeError, and otherwise gives the last accepted value or the default; membership tests and iteration report exactly the declared names, each once.", "quantifier": "all call histories, including calls that raise", "why_tests_cant": "All histories.", "anchors": ["csdl/utils/parameters.py:Parameters.__getitem__", "csdl/utils/parameters.py:Parameters.__contains__", "csdl/utils/parameters.py:Parameters.declare", "csdl/utils/parameters.py:Parameters.undeclare"]}
{"id": "C62", "title": "A call of custom matches the operation", "statement": "csdl.custom returns normally exactly when the arguments match the inputs the operation defines by number, name and shape; it then returns one variable per declared output with its name and shape, and the operation depends on exactly the arguments in order. An operation object with inputs cannot be used twice.", "quantifier": "all operations, define methods and argument lists", "why_tests_cant": "All combinations of declarations and arguments.", "anchors": ["csdl/std/custom.py:custom", "csdl/lang/custom_operation.py:CustomOperation"]}
{"id": "C63", "title": "Calling custom leaves the values of other variables alone", "statement": "csdl.custom gives each input of the operation the default value of its argument and changes no array of the caller.", "quantifier": "all operations and arguments, including shared arrays", "why_tests_cant": "All sharing patterns of array objects.", "anchors": ["csdl/std/custom.py:custom", "csdl/utils/get_shape_val.py:get_shape_val"]}
{"id": "C64", "title": "Linear algebra functions accept exactly matching shapes", "statement": "solve, eigenvalues, sparsematmat, quatrotvec and rotmat raise unless the shapes of their arguments fit together, and give the result the documented shape.", "quantifier": "all shapes of all ranks", "why_tests_cant": "All sizes and ranks.", "anchors": ["csdl/std/solve_linear.py:solve", "csdl/std/eigenvalues.py:eigenvalues", "csdl/std/sparsematmat.py:sparsematmat", "csdl/std/quatrotvec.py:quatrotvec", "csdl/std/rotmat.py:rotmat"]}
{"id": "C65", "title": "diff computes the differences along an axis", "statement": "csdl.diff(delta, array, axis) assigns to delta the differences of neighbouring entries of array along axis, leaving the first ones undefined.", "quantifier": "all shapes and axes", "why_tests_cant": "All ranks, sizes and axes.", "anchors": ["csdl/std/diff.py:diff"]}
{"id": "C66", "title": "Dead code removal removes exactly what no registered output depends on", "statement": "Removing dead code from a compiled representation removes the nodes no registered output depends on, keeps all others, and returns the representation.", "quantifier": "all compiled graphs", "why_tests_cant": "All graph shapes.", "anchors": ["csdl/opt/remove_dead_code.py", "csdl/rep/sort_nodes_nx.py"]}
{"id": "C67", "title": "Calls of the model-building API are accepted exactly when they are valid", "statement": "After any history of calls (raised exceptions caught), a call of create_input, declare_variable, create_output, register_output, print_var, add, connect, add_objective, add_design_variable or add_constraint is accepted if and only if its arguments are valid: legal characters in names, a value that fits the shape, an output object that exists and is not registered, a name not in use, an unused submodel name, a source different from its target, no second objective, a design variable that is an input and not yet one, bounds of the right type, comparable and not crossed.", "quantifier": "all histories of API calls and all arguments", "why_tests_cant": "acceptance depends on the whole history of earlier calls, accepted and rejected", "anchors": ["csdl/lang/model.py:Model.create_input", "csdl/lang/model.py:Model.register_output", "csdl/lang/model.py:Model.add", "csdl/lang/model.py:Model.add_constraint", "csdl/utils/get_shape_val.py"]}
{"id": "C68", "title": "An accepted call records exactly what it was given", "statement": "When a call of the model-building API is accepted, the model afterwards holds the data it held before plus exactly the input, declared variable, output, objective, constraint (lower, upper, equals in their places), design variable or connection that was passed; nothing is lost, reordered or changed, and earlier output objects keep their shape, value and size.", "quantifier": "all model states and all calls", "why_tests_cant": "a frame property over every state and every call", "anchors": ["csdl/lang/model.py:Model", "csdl/lang/model.py:Model.add_constraint", "csdl/lang/model.py:Model.add_design_variable", "csdl/lang/model.py:Model.register_output"]}
{"id": "C69", "title": "influences lists exactly which inputs reach which final outputs", "statement": "The second dictionary returned by GraphRepresentation.influences lists the name b under a if and only if some node named a that nothing computes has a chain of operations to a registered output named b that no operation uses. The first dictionary has the names of these outputs as keys. Refuted parts: the values of the first dictionary are node objects instead of names; an objective or constraint that is also used by another operation is missing from both; operations without arguments are listed as inputs; the four options have no effect.", "quantifier": "every flattened graph, with any number of inputs, outputs and paths between them", "why_tests_cant": "Reachability over arbitrary graphs; tests check a few fixed ones.", "anchors": ["csdl/rep/graph_representation.py:GraphRepresentation.influences", "csdl/rep/get_registered_outputs_from_graph.py:get_registered_outputs_from_graph"]}
{"id": "C70", "title": "Input, output and edge counts of a representation add up", "statement": "nin_vars and nout_vars count (vectorized) or sum the sizes of exactly the variables that no operation, respectively some operation, computes; together they give all variables. The sums of num_uses_of_variables and outputs_per_operation together give the number of edges of the graph.", "quantifier": "every flattened graph, both values of vectorized", "why_tests_cant": "Counting identities over all graphs.", "anchors": ["csdl/rep/graph_representation.py:GraphRepresentation.nin_vars", "csdl/rep/graph_representation.py:GraphRepresentation.nout_vars", "csdl/rep/graph_representation.py:GraphRepresentation.num_uses_of_variables", "csdl/rep/graph_representation.py:GraphRepresentation.outputs_per_operation"]}
{"id": "C71", "title": "Statistics with implicit=True cover every nested implicit operation", "statement": "get_variable_sizes, variable_size_distribution, nout_vars and total_arguments_per_operation give the total over the model and all models nested in implicit operations, at any depth; the distribution lists each size once, in increasing order, with the number of variables of that size. Refuted for nin_vars (adds the outputs of the nested models) and for num_uses_of_variables and outputs_per_operation (only one level deep).", "quantifier": "every representation, every depth of nesting of implicit operations", "why_tests_cant": "Unbounded nesting.", "anchors": ["csdl/rep/graph_representation.py:GraphRepresentation.get_variable_sizes", "csdl/rep/graph_representation.py:GraphRepresentation.variable_size_distribution", "csdl/rep/graph_representation.py:GraphRepresentation.nin_vars", "csdl/rep/graph_representation.py:GraphRepresentation.total_arguments_per_operation"]}
{"id": "C72", "title": "max_arguments_per_operation(implicit=True) is the maximum over all nested models", "statement": "The result is the number of distinct arguments of some operation of the model or of a nested model, and no operation has more. It raises ValueError exactly when the model or a nested model has no operation.", "quantifier": "every representation, every depth of nesting of implicit operations", "why_tests_cant": "Unbounded nesting, extremal value.", "anchors": ["csdl/rep/graph_representation.py:GraphRepresentation.max_arguments_per_operation"]}
{"id": "C73", "title": "Serial cost counts every operation once per iteration of the implicit operations around it", "statement": "serial_cost is the sum, over the model and all nested models, of the number of explicit operations times the product of the maximal numbers of iterations of the implicit operations around it. It raises exactly when one of these numbers cannot be read (no solver, or a solver without maxiter).", "quantifier": "every representation, every depth of nesting, every maximal number of iterations", "why_tests_cant": "Unbounded nesting.", "anchors": ["csdl/rep/graph_representation.py:GraphRepresentation.serial_cost"]}
{"id": "C74", "title": "Parallel computation time is the number of edges of a longest path", "statement": "predict_computation_time(parallel=True) gives n such that some chain of dependencies has n edges and none has more; it raises exactly when the graph has a cycle. Refuted: that this is the number of operations on the chain (the docstring).", "quantifier": "every flattened graph", "why_tests_cant": "Extremal value over all paths of all graphs.", "anchors": ["csdl/rep/graph_representation.py:GraphRepresentation.predict_computation_time"]}
{"id": "C75", "title": "Statistics of a compiled model can be asked for", "statement": "Every documented statistic of a representation (numbers of nodes, scalars, arguments, density, longest path, memory, averages) returns a value for every compiled model. Refuted: these methods read attributes that are never assigned or names that are never defined, and raise for every model with a variable and an operation.", "quantifier": "every representation, every statistic in the list", "why_tests_cant": "For all models: shows that no model makes the call succeed.", "anchors": ["csdl/rep/graph_representation.py:GraphRepresentation.num_variable_nodes", "csdl/rep/graph_representation.py:GraphRepresentation.print_stats", "csdl/rep/graph_representation.py:GraphRepresentation.avg_var_uses_per_var"]}
{"id": "C76", "title": "Building an expression records exactly what the call says", "statement": "Applying an operation to variables creates one operation whose arguments are the given variables in order (an argument that occurs again is replaced by a copy of itself, so that all recorded arguments are distinct) and as many new results as the operation has, each computed by that operation; reading x[key] creates at most one decomposition of x and one result per key not seen before; the assignments y[k1]=x1, ..., y[kn]=xn make one operation with arguments x1..xn in order and result y; csdl.custom adds the arguments to the operation object and makes its results; registering renames one variable and appends it to the outputs of the model. Nothing else is created and nothing that existed before changes; a call with an argument that is no variable changes nothing. (Using one CustomOperation object twice loses the results of the first use from the operation: refuted for that case.)", "quantifier": "all histories of calls on a model, all argument lists, all variables", "why_tests_cant": "the effect concerns every earlier object and every argument pattern, including repeated arguments and earlier reads and assignments", "anchors": ["csdl/lang/standard_operation.py:StandardOperation.__init__", "csdl/lang/variable.py:Variable.__getitem__", "csdl/lang/concatenation.py:Concatenation.__setitem__", "csdl/std/custom.py:custom", "csdl/lang/model.py:register_output"]}
{"id": "C77", "title": "An implicit operation is accepted exactly when its declarations fit, and returns the states in order", "statement": "Whatever sequence of declare_state calls and solver assignments precedes it, the call of the object made by create_implicit_operation is accepted if and only if every state was declared once with a numeric value, the states and residuals satisfy the conditions on the internal model (C31), brackets or defaults and solvers fit, each value fits its variable, and the results have legal, distinct names not used in the parent; then the k-th state is paired with the k-th residual, the results are the states in the order of declaration followed by the exposed variables, and exactly these are appended to the outputs of the parent. A declare_state call that raised TypeError must have no effect (refuted: the residual is kept and the operation can never be used).", "quantifier": "all internal models, parents, sequences of declarations and solver assignments, arguments, exposed names and defaults", "why_tests_cant": "acceptance depends on the whole history of declarations and on both models", "anchors": ["csdl/lang/implicit_operation_factory.py:declare_state", "csdl/lang/implicit_operation_factory.py:apply", "csdl/lang/model.py:_implicit_operation", "csdl/lang/model.py:_bracketed_search", "csdl/lang/model.py:_return_implicit_outputs"]}
{"id": "C78", "title": "A rejected implicit operation leaves the parent model as it was", "statement": "If the call of an implicit operation raises, the parent model has the same inputs, declared variables and outputs as before. Holds when one of the checks on the internal model, brackets, defaults or solvers fails; false otherwise: the results before the one with an unusable name or value stay registered (the theorem says exactly which).", "quantifier": "all internal models, parents, sequences of declarations, arguments, exposed names and defaults, every point at which the call can fail", "why_tests_cant": "each of the results can be the one that fails, after any number of successful registrations", "anchors": ["csdl/lang/model.py:_return_implicit_outputs", "csdl/lang/model.py:register_output", "csdl/lang/implicit_operation.py:ImplicitOperation"]}
{"id": "C79", "title": "Settings of an implicit operation are checked and kept", "statement": "Default values and solvers passed to an implicit operation are stored with it or the call raises; a Newton or Broyden solver without a linear solver is rejected without an effect. False with brackets: default values and solvers are dropped silently.", "quantifier": "all internal models, parents, sequences of declarations, default values", "why_tests_cant": "the settings interact with brackets declared earlier in the history", "anchors": ["csdl/lang/implicit_operation_factory.py:apply", "csdl/lang/implicit_operation.py:ImplicitOperation", "csdl/lang/model.py:_bracketed_search"]}
{"id": "C80", "title": "Every name of a variable accesses the same value in the simulator", "statement": "After any sequence of assignments sim[name] = value through promoted or unpromoted names, reading sim[name] through any name of a variable gives the value assigned last through any name of a variable with the same promoted name, or the initial value if there was none; a name of no variable raises KeyError for reading and for assigning, and a rejected assignment changes nothing; a read warns exactly when the simulation has not been run. False when declared names contain dots (which is not checked): two unrelated variables then share one name and one value.", "quantifier": "all model hierarchies, initial values and sequences of assignments, accepted or rejected", "why_tests_cant": "every history of assignments over every hierarchy of promotions", "anchors": ["csdl/sim/simulator_base.py:__getitem__", "csdl/sim/simulator_base.py:__setitem__", "csdl/sim/simulator_base.py:_find_promoted_name"]}
{"id": "C81", "title": "Elementwise functions compute what their names say", "statement": "csdl.sin, cos, tan, sinh, cosh, tanh, arcsin, arccos, arctan, exp, log, log10, cotan, cotanh, sec, sech, cosec and cosech accept every variable, of any shape and from any expression, return a variable of the same shape whose elements (and whose generated string) are that function of the elements of the argument, leave all other variables alone, and reject anything that is not a variable with TypeError.", "quantifier": "all functions, argument variables, shapes, histories and real values", "why_tests_cant": "All shapes and all real values.", "anchors": ["csdl/std/sin.py:sin", "csdl/std/sech.py:sech", "csdl/operations/sin.py:sin", "csdl/operations/cosech.py:cosech", "csdl/lang/standard_operation.py:StandardOperation.__init__"]}
{"id": "C82", "title": "Inverse hyperbolic functions invert the hyperbolic functions", "statement": "csdl.arsinh, arcosh, artanh, arcoth, arsech and arcsch return a variable of the shape of the argument such that sinh, cosh, tanh, coth, sech or csch of the result is the argument, for every argument in the domain of the function.", "quantifier": "all variables, shapes and real values in the domain of the function", "why_tests_cant": "All real values; a wrong formula can agree at special points.", "anchors": ["csdl/std/arsinh.py:arsinh", "csdl/std/arcosh.py:arcosh", "csdl/std/artanh.py:artanh", "csdl/std/arcoth.py:arcoth", "csdl/std/arsech.py:arsech", "csdl/std/arcsch.py:arcsch"]}
{"id": "C83", "title": "exp_a raises the base to the powers given", "statement": "csdl.exp_a(a, x) returns a variable of the shape of x whose elements are a to the power of the elements of x, for a number, an array or variable of the shape of x, or one of shape (1,) standing for its element everywhere; other shapes are rejected; the generated string evaluates to the same.", "quantifier": "all bases, exponents, shapes and values", "why_tests_cant": "All combinations of shapes and values.", "anchors": ["csdl/std/exp_a.py:exp_a", "csdl/operations/exp_a.py:exp_a"]}
{"id": "C84", "title": "body_313 builds a rotation matrix", "statement": "body_313(R, p, q, r) with R of shape (3, 3) and angles given by scalar variables defines every element of R exactly once, with the element of the product of the rotations by p, q, r about the axes 3, 1, 3; the matrix is orthogonal with determinant 1 for all angles.", "quantifier": "all histories, variables and angles", "why_tests_cant": "All real angles; trigonometric identities.", "anchors": ["csdl/std/rotations/body/body_313.py:body_313", "csdl/lang/concatenation.py:Concatenation.__setitem__"]}
{"id": "C85", "title": "B-spline matrices hold the B-spline basis functions", "statement": "In exact arithmetic, get_bspline_mtx(num_cp, num_pt, order) for positive num_cp and order gives one row per parameter value 0, 1/(num_pt-1), ..., 1 with the values of the Cox-de Boor basis functions over clamped uniform knots of order min(order, num_cp): entries lie inside the matrix, are not negative, and add up to 1, and the first and last rows select the first and last control point; zero num_cp or order raises ValueError.", "quantifier": "all numbers of control points, points and orders", "why_tests_cant": "All sizes; in-place recursion with index arithmetic.", "anchors": ["csdl/utils/get_bspline_mtx.py:get_bspline_mtx"]}
{"id": "C86", "title": "Solvers have exactly the options of their table, checked when they are created", "statement": "Calling a solver class (DirectSolver, LinearBlockGS, LinearBlockJac, LinearRunOnce, PETScKrylov, ScipyKrylov, LinearUserDefined, BroydenSolver, NewtonSolver, NonlinearBlockGS, NonlinearBlockJac, NonlinearRunOnce, BoundsEnforceLS, ArmijoGoldsteinLS) with keyword arguments either raises the error of the first unacceptable argument (KeyError for a name that is not an option of that class, TypeError/ValueError for a value outside the option's type, list or range), or returns a solver whose options are exactly those of its class, each reading as the given value or else the default; NewtonSolver's solve_subsystems has no default and cannot be read until it is given.", "quantifier": "every solver class and every list of keyword arguments", "why_tests_cant": "The table of options is assembled from up to three classes by declare, undeclare and assignment; tests construct a few solvers with a few options.", "anchors": ["csdl/solvers/solver.py:Solver.__init__", "csdl/solvers/linear/direct.py:DirectSolver._declare_options", "csdl/solvers/nonlinear/newton.py:NewtonSolver._declare_options", "csdl/solvers/nonlinear/nonlinear_runonce.py:NonlinearRunOnce._declare_options", "csdl/solvers/linesearch/backtracking.py:ArmijoGoldsteinLS._declare_options", "csdl/utils/parameters.py:Parameters.update"]}
{"id": "C87", "title": "A compiled model computes what the model says", "statement": "Let a hierarchy of models be compiled by GraphRepresentation without error. Executing the operations of the flat graph in the order of flat_sorted_nodes, with one memory cell per variable node and the supplied values in the cells of inputs and unconnected declared variables, gives every variable of every model the value the model defines for it: each operation is applied to the values of its own arguments, all variables with one promoted name (a declared variable and the input or output it is promoted to) have one value, the two ends of every declared connection have one value, inputs have the supplied value. These equations have no other solution. Every operation some registered output depends on is in the order exactly once, after the producers of its arguments.", "quantifier": "all hierarchies of models whose objects were made by the API and use their own variables, all promotions and connections, all meanings of the operations and all supplied values", "why_tests_cant": "Tests compare the results of single models on one back end; the claim relates all passes (names, promotion, construction, flattening, automatic and user connections, sorting) for every hierarchy.", "anchors": ["csdl/rep/graph_representation.py:GraphRepresentation.__init__", "csdl/rep/construct_unflat_graph.py", "csdl/rep/construct_flat_graph.py", "csdl/rep/merge_connections.py", "csdl/rep/sort_nodes_nx.py"]}
{"id": "C88", "title": "Which hierarchies compile", "statement": "Compiling a hierarchy (GraphRepresentation) raises no error when no promoted name has two sources, variables that share a promoted name have the same number of elements, every promoted name exists, every connection leads from an input or a registered output to used declared variables with as many elements whose promoted name has no source, no two connections lead to the same variable, design variables, constraints and the objective name existing variables (the first two each another one, at most one objective), and no operation depends on its own results through promotions and connections. Conversely every model that compiles satisfies all these except the second and third.", "quantifier": "all hierarchies of models whose objects were made by the API and use their own variables, all promotions, connections, design variables, constraints and objectives", "why_tests_cant": "Every combination of rules and violations over unbounded hierarchies; tests show that single models are accepted or rejected.", "anchors": ["csdl/rep/graph_representation.py:GraphRepresentation.__init__", "csdl/rep/resolve_promotions.py", "csdl/rep/collect_connections.py", "csdl/rep/construct_flat_graph.py", "csdl/rep/merge_connections.py", "csdl/rep/sort_nodes_nx.py"]}
{"id": "C89", "title": "From API calls to values", "statement": "A program is a sequence of calls on Model objects (create_input, declare_variable, create_output, operations, indexing, register_output, add, connect, ...), of which some may raise. If no name given by the user is the id of a node the program creates, each model uses only variables it created itself, each CustomOperation object is applied once, submodels are named, created outputs are assigned to, named results are registered and a model's variables and submodels have different names, then every model in which no model contains itself and which satisfies the rules of C88 compiles, and the compiled program computes the only solution of the equations the calls wrote down.", "quantifier": "all sequences of calls following the rules, over any number of models; all meanings of the operations and all supplied values", "why_tests_cant": "Histories of calls are unbounded and interleave several models; tests build single models in one order.", "anchors": ["csdl/lang/model.py:Model", "csdl/lang/subgraph.py:Subgraph", "csdl/lang/operation.py:Operation", "csdl/rep/graph_representation.py:GraphRepresentation.__init__"]}
{"id": "C90", "title": "Models contain what was recorded in them", "statement": "After any program of calls on any number of models: the connections of a model are exactly the pairs of different names given to its connect, each once; its design variables are exactly the names given to its add_design_variable that were inputs at that time, its constraints those given to add_constraint, each once, its objective the one of the first add_objective; its submodels are exactly those added with an allowed, unused name, or with the generated name. If models use only their own variables: its inputs and declared variables are exactly those its own calls created, its outputs those of create_output and of the accepted register_output calls, under the names given there; a call on one model changes neither another model nor any object another model created; and compiling a model reads at each path of submodel names the model added there.", "quantifier": "all sequences of calls over any number of models; all call positions", "why_tests_cant": "Histories interleave calls on several models and include rejected calls; a test sees one interleaving.", "anchors": ["csdl/lang/model.py:Model", "csdl/lang/subgraph.py:Subgraph", "csdl/rep/graph_representation.py:GraphRepresentation.__init__"]}
{"id": "C91", "title": "The compiled program computes what the script says", "statement": "For any script of calls on any number of models (creating, declaring, registering and assigning variables, arithmetic operators and elementwise functions between variables and with numbers or arrays, other operations, reading and assigning elements with keys, adding submodels, connecting) that follows the rules of C89 and does not assign with a negative integer key: if the documented conditions hold, the hierarchy compiles, and in the program it compiles to every variable has the value its line says, in every instance of the model the line belongs to: the elementwise arithmetic of the operator (also when a variable is combined with itself), the value of the operation on the values of its arguments, the elements of the read variable that the key selects, in order, and at the positions selected by the key of an assignment the elements assigned. Shapes are those the line implies.", "quantifier": "all scripts following the rules, all numbers, all meanings of other operations, all supplied values", "why_tests_cant": "It ranges over all scripts and all values; a unit test runs a few fixed scripts on fixed numbers, and only through a back end that is a separate package.", "anchors": ["csdl/lang/variable.py:Variable.__getitem__", "csdl/lang/variable.py:Variable.__add__", "csdl/lang/concatenation.py:Concatenation.__setitem__", "csdl/lang/standard_operation.py:StandardOperation", "csdl/operations/linear_combination.py", "csdl/operations/power_combination.py", "csdl/operations/decompose.py", "csdl/operations/indexed_passthrough.py", "csdl/rep/graph_representation.py:GraphRepresentation.__init__"]}
{"id": "C92", "title": "Lines of a script are accepted exactly as documented", "statement": "In a script, an operator or elementwise function is accepted exactly when its operands are variables of one shape, exponents are numbers and no divisor is the number 0, and it returns a new variable; other standard operations are accepted on any variables; x[key] is accepted for keys with one integer in range or ordinary slice per dimension, and two reads return the same variable exactly when their keys select alike, whatever the script does in between; y[key] = x is accepted when y was made by create_output, the shapes match and no earlier assignment to y used that name or overlaps; two accepted assignments to y never overlap.", "quantifier": "all scripts, all lines before and between the lines considered, all keys, all shapes and numbers", "why_tests_cant": "The acceptance of a line depends on the whole history of the script (names, cached reads, indices already assigned), so no finite set of scripts settles it.", "anchors": ["csdl/lang/variable.py: __getitem__ and operators", "csdl/lang/concatenation.py: __setitem__", "csdl/lang/standard_operation.py"]}
{"id": "C93", "title": "The indices of an assignment are found under the name of the assigned variable", "statement": "After any script, an output made by create_output has, for every accepted assignment y[key] = x, the shape of x and the positions the key selects recorded under the name that x has when the script is over, and no variable is assigned to it twice.", "quantifier": "all scripts, all accepted assignments in them, all lines before and after", "why_tests_cant": "Registering an output changes the name of a variable after it was used; whether the recorded names still fit depends on the order of all the calls of the script.", "anchors": ["csdl/lang/concatenation.py: __setitem__", "csdl/lang/model.py: register_output"]}
{"id": "C94", "title": "A copy of a Parameters dictionary reads like the original", "statement": "An object made by copying (copy.copy, copy.deepcopy, pickle) a Parameters dictionary declares the same names in the same order, reads the same value for each and accepts the same assignments.", "quantifier": "all histories of declare, undeclare, set and update before the copy, some of which may raise", "why_tests_cant": "The state that is copied depends on the whole history of declarations, including undone ones.", "anchors": ["csdl/utils/parameters.py:Parameters.__getstate__", "csdl/utils/parameters.py:Parameters.declare", "csdl/utils/parameters.py:Parameters.__getitem__"]}
{"id": "C95", "title": "Data of declared derivatives", "statement": "The data kept for a declared derivative (dependent, rows, cols, val, method, step, form, step_calc) are exactly the arguments, or the documented defaults, of the one declare_derivatives call that declared the pair, also when that call named several outputs or inputs or used a wildcard, also when it raised after declaring the pair, and whatever is called later.", "quantifier": "all histories of add_input, add_output and declare_derivatives calls of a custom operation, with any of, wrt and keyword arguments, some of which raise and are caught", "why_tests_cant": "The data of a pair depend on which call of an unbounded history was the first to cover it, through recursive expansion of lists and wildcards.", "anchors": ["csdl/lang/custom_operation.py:CustomOperation.declare_derivatives"]}
{"id": "C96", "title": "Automatic names are reproducible", "statement": "The name csdl gives to the result of an expression or to a submodel added without a name depends only on how many variables, operations and submodels were constructed before, and that number is determined by the history of calls: a rejected name constructs nothing, a value that does not fit its shape or a name already in use still uses up one.", "quantifier": "all histories of model-building calls, some of which raise and are caught", "why_tests_cant": "The number of objects accumulates over an unbounded history, including calls that raise half-way.", "anchors": ["csdl/lang/node.py:Node.__init__", "csdl/lang/subgraph.py:Subgraph.__init__", "csdl/lang/model.py:Model.add", "csdl/lang/model.py:Model.print_var", "csdl/lang/variable.py:Variable.__init__"]}
{"id": "C97", "title": "create_submodel blocks", "statement": "A with block of create_submodel is the same as constructing a model, running the body and adding the model to the parent: the model is added when the block ends, after everything the body added to the parent, also when the body raises, with what it recorded until then, and the exception goes on; if the parent cannot accept the name, ValueError or KeyError is raised only at the end of the block and replaces the exception of the body.", "quantifier": "all programs of model-building calls and create_submodel blocks on any models, nested in any way, with exceptions raised and caught anywhere", "why_tests_cant": "Blocks nest to any depth, on any parent, and each can be left by an exception.", "anchors": ["csdl/lang/model.py:Model.create_submodel", "csdl/lang/model.py:Model.__exit__", "csdl/lang/model.py:InlineModel", "csdl/lang/model.py:Model.add"]}
{"id": "C98", "title": "The dependencies recorded for a residual are all that its value depends on", "statement": "When an implicit operation is accepted, changing the values of arguments and states that are not recorded as dependencies of a residual (or of an exposed variable) does not change the value of that residual, and an operation is rejected for a residual that does not depend on its state only if its value does not depend on it.", "quantifier": "all internal models built by any sequence of API calls, with any hierarchy of submodels and connections, any operations and any values", "why_tests_cant": "The internal model may be any program, and the claim compares its results for all pairs of values of its inputs.", "anchors": ["csdl/lang/model.py:Model._generate_maps", "csdl/utils/collect_terminals.py:collect_terminals"]}
{"id": "C99", "title": "Compiling does not depend on the order in which Python iterates over sets", "statement": "Whether a model compiles, the names in its representation, the operations that are executed, which variables share a value with an input or a computed variable, and every value computed by the program are the same whatever the iteration order of the sets the compiler builds (string hashes and addresses vary from run to run).", "quantifier": "all hierarchies of models, all operations and values, all iteration orders of all sets", "why_tests_cant": "Tests see the one order their interpreter and hash seed produce; the orders of the sets of one model already have factorially many combinations.", "anchors": ["csdl/rep/graph_representation.py:create_reverse_map", "csdl/rep/construct_flat_graph.py:merge_graphs", "csdl/rep/construct_flat_graph.py:merge_automatically_connected_nodes", "csdl/rep/merge_connections.py:merge_connections"]}
{"id": "C100", "title": "The value used for an unconnected declared variable is the same in every run", "statement": "When several models declare a variable with the same promoted name and nothing provides it, the declaration whose value is used is the same whatever the iteration order of Python sets.", "quantifier": "all hierarchies of models, all iteration orders of all sets", "why_tests_cant": "The order of the set of submodels depends on memory addresses, which a test run does not control.", "anchors": ["csdl/rep/construct_flat_graph.py:merge_automatically_connected_nodes", "csdl/rep/construct_flat_graph.py:merge_graphs"]}
{"id": "C101", "title": "Every variable can be reshaped and flattened", "statement": "x.reshape(a, b, ...), x.reshape((a, b, ...)) and csdl.reshape(x, (a, b, ...)) do the same: they give a variable of that shape when the number of elements stays the same, raise ValueError otherwise, and TypeError for lengths that are no integers; x.flatten() gives a one-dimensional variable with all elements of x, for every variable of a model.", "quantifier": "all shapes, arguments and histories of calls on a model", "why_tests_cant": "All shapes and all ways to make the variable; the size attribute depends on how the variable was made.", "anchors": ["csdl/lang/variable.py:Variable.reshape", "csdl/lang/variable.py:Variable.flatten", "csdl/std/reshape.py:reshape", "csdl/std/reshape.py:flatten"]}
{"id": "C102", "title": "bessel accepts the kinds 1 and 2 and orders that fit", "statement": "csdl.bessel(x, kind, order) is accepted exactly for a variable x, kind 1 or 2, and an order that is a number or an array of the shape of x; the result has the shape of x and the operation keeps kind and order; everything else raises an exception.", "quantifier": "all variables, kinds and orders", "why_tests_cant": "All combinations of shapes and argument types.", "anchors": ["csdl/std/bessel.py:bessel", "csdl/operations/bessel.py:bessel"]}
{"id": "C103", "title": "A failed compilation reports a broken rule", "statement": "When GraphRepresentation(model) raises an exception for a model made through the API, it is a KeyError or ValueError and the model breaks one of the documented rules (two sources of one name, sizes that differ, names that do not exist, bad connections, design variables, constraints or objectives, feedback); the compiler never fails on its own data structures, whatever the model, and a model that fails under one iteration order of sets fails under all.", "quantifier": "all models made through the API, all iteration orders of sets", "why_tests_cant": "Every hierarchy, and every way to be wrong; a test shows one failure each.", "anchors": ["csdl/rep/graph_representation.py:GraphRepresentation.__init__", "csdl/rep/construct_unflat_graph.py:construct_unflat_graph", "csdl/rep/construct_flat_graph.py:construct_flat_graph", "csdl/rep/merge_connections.py:merge_connections"]}
{"id": "C104", "title": "Every name of a needed variable finds its value in a compiled model", "statement": "In a compiled model a variable can be named by its promoted name and by each unpromoted name; both find the same node of the flat graph, the one that holds the value of all variables with that promoted name, also when a connection merged it into its source. The value read there is the one the equations of the model give to the variable. A name finds nothing only if it is no variable's name, or that of declared variables that nothing uses.", "quantifier": "all models made through the API, all names, all iteration orders of sets, all operations and supplied values", "why_tests_cant": "Every hierarchy, promotion, connection and name; tests read a few names of a few models.", "anchors": ["csdl/sim/simulator_base.py:SimulatorBase._find_promoted_name", "csdl/sim/simulator_base.py:SimulatorBase.__getitem__", "csdl/rep/graph_representation.py:GraphRepresentation.promoted_to_node", "csdl/rep/merge_connections.py:merge_connections"]}
{"id": "C105", "title": "Design variables, constraints and objective refer to values of the compiled model", "statement": "The design variables, constraints and objective of a compiled model are exactly those added anywhere in the hierarchy, each under the promoted name of the variable that was named. A design variable is an input with a node of its own, whose value after a run is the one supplied; the name of a constraint or of the objective finds the value of that variable.", "quantifier": "all models made through the API, all iteration orders of sets, all operations and supplied values", "why_tests_cant": "Every hierarchy and every way to name a variable in it.", "anchors": ["csdl/lang/model.py:Model.add_design_variable", "csdl/lang/model.py:Model.add_constraint", "csdl/lang/model.py:Model.add_objective", "csdl/rep/graph_representation.py:GraphRepresentation.__init__", "csdl/sim/simulator_base.py:SimulatorBase.__getitem__"]}
{"id": "C106", "title": "The value of a variable depends exactly on the supplied values the model makes it from", "statement": "After a run, the value of a variable is fixed by the values supplied for the names it is made from, through operations, shared promoted names and connections. Changing the value supplied for any other name never changes it; and for each name it is made from there are operations for which changing only that value changes the variable. In the flat graph of the compiled model these are exactly the names of the nodes without predecessors from which a path leads to the node of the variable.", "quantifier": "all models that compile, all variables, all operations, all supplied values, all iteration orders of sets", "why_tests_cant": "Every pair of runs that differ in some supplied values, for every model.", "anchors": ["csdl/rep/graph_representation.py:GraphRepresentation.__init__", "csdl/rep/construct_flat_graph.py:construct_flat_graph", "csdl/rep/merge_connections.py:merge_connections"]}
{"id": "C107", "title": "influences reports the true dependences of unused registered outputs", "statement": "In a compiled model in which every operation has an argument, the second dictionary of influences maps the promoted name of a supplied value exactly to the promoted names of the registered outputs that no operation uses and whose value depends on that supplied value in the sense of the model's equations.", "quantifier": "all models that compile and whose operations all have arguments, all pairs of names, all iteration orders of sets", "why_tests_cant": "Every hierarchy, promotion and connection; a test compares a few graphs with expected dictionaries.", "anchors": ["csdl/rep/graph_representation.py:GraphRepresentation.influences", "csdl/rep/get_registered_outputs_from_graph.py:get_registered_outputs_from_graph"]}
{"id": "C108", "title": "A submodel computes inside a hierarchy what it computes on its own", "statement": "Every variable of a submodel that compiles on its own has, in a run of the hierarchy that contains it, the value that it has in a run of the submodel alone when this is given, for its inputs and for the variables it does not supply itself, the values these have in the hierarchy; such values always exist. If the hierarchy satisfies all rules, the submodel compiles on its own exactly when every connection declared inside it is in order there.", "quantifier": "all hierarchies that compile, all submodels at any depth, all operations, all supplied values, all iteration orders of sets", "why_tests_cant": "Relates two compilations and two runs, for every hierarchy and every submodel of it.", "anchors": ["csdl/rep/graph_representation.py:GraphRepresentation.__init__", "csdl/rep/construct_flat_graph.py:construct_flat_graph", "csdl/rep/resolve_promotions.py:resolve_promotions", "csdl/rep/merge_connections.py:merge_connections", "csdl/lang/model.py:Model.add"]}
{"id": "C109", "title": "Calls made later do not change values computed before", "statement": "If a complete program is continued with further calls (more variables, operations, indexing reads, submodels, connections) that neither assign again to its outputs, nor apply a custom operation it constructed, nor supply a variable it left to be supplied, then every variable that took part in the model before has the same value in a run of the longer program as in a run of the shorter one, for the same supplied values.", "quantifier": "all programs that follow the rules, all continuations, all models in them, all operations, all supplied values, all iteration orders of sets", "why_tests_cant": "Relates the compilations and runs of two programs, for every program and every continuation of it.", "anchors": ["csdl/rep/graph_representation.py:GraphRepresentation.__init__", "csdl/lang/model.py:Model.register_output", "csdl/lang/model.py:Model.add", "csdl/lang/model.py:Model.connect", "csdl/lang/variable.py:Variable.__getitem__", "csdl/lang/concatenation.py:Concatenation.__setitem__"]}
{"id": "C110", "title": "The order of declarations does not matter", "statement": "Moving the calls of a complete program that declare submodels (with names), connections, design variables, constraints and objectives past each other, and moving connections and constraints past calls that create or register variables, gives a program that still follows the rules, builds the same node objects and the same models up to the order of what they list, is accepted for compilation exactly when the first one is, and gives every variable the same value. Two submodels with the same name and two objectives of one model keep their order.", "quantifier": "all programs that follow the rules, all such reorderings of their calls, all models in them, all operations, all supplied values, all iteration orders of sets", "why_tests_cant": "Relates the compilations and runs of all pairs of programs that differ in the order of calls.", "anchors": ["csdl/rep/graph_representation.py:GraphRepresentation.__init__", "csdl/lang/model.py:Model.add", "csdl/lang/model.py:Model.connect", "csdl/lang/model.py:Model.add_design_variable", "csdl/lang/model.py:Model.add_constraint", "csdl/lang/model.py:Model.add_objective"]}
{"id": "C111", "title": "Stating an optimization problem does not change what a model computes", "statement": "If two programs make the same calls except for add_design_variable, add_constraint and add_objective, which may come anywhere, then they build the same node objects and the same models; their compiled models agree in every attribute but design variables, constraints and objective (names, connections, graph, execution order), and every variable has the same value. A program compiles if and only if it compiles without these calls, the design variables name different variables, so do the constraints, and at most one objective is declared, for a variable.", "quantifier": "all pairs of programs that differ in such calls, all models in them, all operations, all supplied values, all iteration orders of sets", "why_tests_cant": "Relates the compilations of all pairs of programs that differ in these calls.", "anchors": ["csdl/rep/graph_representation.py:GraphRepresentation.__init__", "csdl/rep/collect_design_variables.py:collect_design_variables", "csdl/rep/collect_constraints.py:collect_constraints", "csdl/rep/find_objective.py:find_objective", "csdl/lang/model.py:Model.add_design_variable", "csdl/lang/model.py:Model.add_constraint", "csdl/lang/model.py:Model.add_objective"]}
{"id": "C112", "title": "A model added in several places computes the same function everywhere", "statement": "If a Model object that compiles on its own is added in several places, of one main model or of different ones, and in two of these places its inputs and the variables it leaves to be supplied have the same values, then all its variables (and those of its submodels) have the same values in both places.", "quantifier": "all programs that follow the rules, all model objects and pairs of places where they occur, all operations, all supplied values, all iteration orders of sets", "why_tests_cant": "Relates the values at all pairs of places of every hierarchy a program can build.", "anchors": ["csdl/rep/graph_representation.py:GraphRepresentation.__init__", "csdl/lang/model.py:Model.add", "csdl/lang/model.py:Model.connect", "csdl/rep/construct_flat_graph.py:construct_flat_graph"]}
{"id": "C113", "title": "Promotion and connection are interchangeable", "statement": "Two variables are kept in the same place exactly if promotions and connections link them. Two programs that differ only in what they promote, in their connections and in the optimization problem, but link the same variables, compute the same values for all variables, if the same values are supplied for the inputs and the variables left to be supplied - for example, sharing a name with a submodel and promoting nothing but connecting the two variables are the same.", "quantifier": "all pairs of programs that follow the rules and differ only in promotes, connect and the optimization problem, all hierarchies that compile, all operations, all supplied values, all iteration orders of sets", "why_tests_cant": "Relates every hierarchy with every other one that links the same variables.", "anchors": ["csdl/rep/graph_representation.py:GraphRepresentation.__init__", "csdl/lang/model.py:Model.add", "csdl/lang/model.py:Model.connect", "csdl/rep/construct_flat_graph.py:construct_flat_graph", "csdl/rep/merge_connections.py:merge_connections"]}
{"id": "C114", "title": "Names do not matter", "statement": "Programs that differ only in the names they give to variables and submodels, in what they promote and connect, and in the optimization problem - none of the names being rejected - build the same objects and models. If they also link the same variables, and the same values are supplied for corresponding inputs and corresponding variables left to be supplied, corresponding variables have the same values.", "quantifier": "all pairs of programs that follow the rules and differ only in names, promotes, connect and the optimization problem, all hierarchies that compile, all operations, all supplied values, all iteration orders of sets", "why_tests_cant": "Relates every program with all its renamings.", "anchors": ["csdl/rep/graph_representation.py:GraphRepresentation.__init__", "csdl/lang/model.py:Model.create_input", "csdl/lang/model.py:Model.declare_variable", "csdl/lang/model.py:Model.register_output", "csdl/lang/model.py:Model.add", "csdl/lang/model.py:Model.connect"]}
{"id": "C115", "title": "A model may be reorganised", "statement": "Moving operations into or out of submodels, splitting or merging models, and sharing or repeating intermediate results does not change values: if every variable of one model has a counterpart in another one, linked variables have linked counterparts, every operation has one that does the same with counterparts of its arguments and results, and the same values are supplied, then each variable has the value of its counterparts.", "quantifier": "all pairs of programs that follow the rules and compile, all correspondences between their variables, all operations, all supplied values, all iteration orders of sets", "why_tests_cant": "Relates every model with every other model that does the same work.", "anchors": ["csdl/rep/graph_representation.py:GraphRepresentation.__init__", "csdl/lang/model.py:Model.add", "csdl/lang/model.py:Model.declare_variable", "csdl/lang/model.py:Model.register_output"]}
{"id": "C116", "title": "Consistent renaming is harmless", "statement": "Replacing the names of variables and submodels consistently and one to one, in definitions, promotes, connections and the optimization problem, neither makes a model compile nor prevents it, and when values are supplied under the new names every variable has the value it had before.", "quantifier": "all hierarchies, all renamings that are one to one and rename dotted names part by part, all operations, all supplied values, all iteration orders of sets", "why_tests_cant": "Relates every model with all its renamings.", "anchors": ["csdl/rep/graph_representation.py:GraphRepresentation.__init__", "csdl/rep/resolve_promotions.py:resolve_promotions", "csdl/rep/collect_connections.py:collect_connections", "csdl/lang/model.py:Model.add", "csdl/lang/model.py:Model.connect"]}
