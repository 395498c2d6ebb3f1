# Formal model of LSDOlab/csdl in Rocq (Coq 8.16.1)

## Approach

csdl is a Python front end: user code builds `Model` objects, and
`GraphRepresentation` compiles a hierarchy of models into one flat, sorted
graph.  The code is modelled function by function as total Gallina functions
over `list`, `nat`, `Z`, `Q`, `string`, with Python exceptions as values
(`res A := Ok a | Err exn`).  Python dicts are association lists in insertion
order (`PyBase.v`), sets are duplicate-free lists, and a
mutating method is a function from state to (state, result).  Where the code iterates over
a set, `IterModel.v` makes the order a parameter and C99 shows what does not
depend on it.  Where object
identity matters (expression graphs, arrays changed in place, shared model
objects) there is an explicit heap and references are positions in it.
Loops that are not structurally recursive take fuel and return an error value
when it runs out; theorems show that the fuel given by the model suffices.

Layout of `/verif/rocq/theories`:

* `*Model.v`: the models, no proofs, each definition citing `/repo` file:lines.
* `*Spec.v`: small specifications written without the model's helpers.
* `*Proofs*.v`: lemmas.
* `Prop_*.v`: property theorems, each followed by `Print Assumptions`, with
  non-vacuity `Example`s beside them.

Naming: `..._partial` proves part of a property, `..._refuted` exhibits inputs
on which the (faithful) model of the code violates the property as stated.  A
property whose statement is partly false of the code has status "partial" in
MANIFEST.json: its positive theorems say under which condition it holds, its
`_refuted` theorems show that the condition is needed.

## Properties

| id | property | modelled | proved by | status | remarks |
|----|----------|----------|-----------|--------|---------|
| C01 | Node identifiers never repeat | gen_hex_name incl. correctly rounded int/int division; node counter | digit strings injective by induction; collision computed beyond the threshold | partial | Holds for the first 62*63^4 nodes of a process; false beyond: '_' is both padding prefix and a digit, so node 62*63^4+k collides with node k. |
| C02 | An automatically named submodel is never confused with another node | Subgraph auto name, next node id, nodes lookup | witness by computation | partial | False: the generated submodel name is the id of the next node created. |
| C03 | Accepted names make dotted paths unambiguous | check_banned_chars, prepend_namespace | join of dotted paths injective, induction over paths | partial | Holds for non-empty submodel names; the empty name is accepted and makes paths ambiguous. isalnum modelled on ASCII. |
| C04 | Slices select the elements Python slicing selects | slice_to_tuple, slice_to_list, range | equality with Python's slice semantics for all bounds and steps | proved | — |
| C05 | Multi-axis keys address the row-major sub-array | meshgrid, ravel_multi_index, flatten | induction over the rank against the enumeration of multi-indices | proved | Keys whose components are ints and slices. |
| C06 | Reading the same slice twice yields the same variable | cache of reads | invariant over read histories | proved | — |
| C07 | Indexed assignments never overlap | Concatenation.__setitem__ | invariant over histories of assignments | partial | False for negative integer keys, which are recorded raw: y[-1] and y[n-1] are both accepted. |
| C08 | A rejected indexed assignment has no effect | Concatenation.__setitem__ | case analysis of every exit; witness | partial | False for overlap errors: the variable and positions are recorded before the check. The exact state after such a rejection is proved; later assignments of other variables to disjoint positions are unaffected. |
| C09 | A variable name identifies one variable of a model | names of variables of a model | model as state machine; invariants over all call histories | partial | Outputs are distinct and fresh when registered; create_input and declare_variable accept names in use. |
| C10 | A rejected model-building call has no effect on the model | all calls of the building API | model as state machine; invariants over all call histories | proved | From every state, not only reachable ones. |
| C11 | Optimisation data of a model is consistent | objectives, constraints, design variables | model as state machine; invariants over all call histories | proved | Bounds: numbers and one-dimensional arrays. |
| C12 | Submodels are found under the name they were added with | add/create_submodel | model as state machine; invariants over all call histories | proved | — |
| C13 | Promotion gives every variable exactly one promoted name | resolve_promotions on model trees, reverse map | induction on trees against an inductive definition of promoted namespaces | proved | Under well_named: names without '.', non-empty distinct submodel names. |
| C14 | Promoted names follow the promotes rule | resolve_promotions on model trees, reverse map | induction on trees against an inductive definition of promoted namespaces | proved | Same hypotheses as C13. |
| C15 | Two sources never share a promoted name | resolve_promotions on model trees, reverse map | induction on trees against an inductive definition of promoted namespaces | proved | Across models; within one model see C09. |
| C16 | Variables sharing a promoted name have the same number of elements | resolve_promotions on model trees, reverse map | induction on trees against an inductive definition of promoted namespaces | partial | False for a source and a declared variable in unrelated submodels; proved for all other pairs (when each single model is consistent). |
| C17 | Invalid promotes are rejected | resolve_promotions on model trees, reverse map | induction on trees against an inductive definition of promoted namespaces | partial | The code checks the name against the parent's namespace, not the submodel's. |
| C18 | Every declared connection reaches the representation exactly once | collect_connections, de-duplication | induction on trees | proved | — |
| C19 | Connections are single-source, typed and size-consistent | merge_connections on digraphs, contracted_nodes | invariants of the fold over connections | proved | Graphs without edges between variables (C24). |
| C20 | A connection target must be a declared variable | merge_connections on digraphs, contracted_nodes | invariants of the fold over connections | partial | False: isinstance(target, Variable) accepts inputs. |
| C21 | Connecting redirects every consumer | merge_connections on digraphs, contracted_nodes | invariants of the fold over connections | partial | Proved when all targets are declared variables; false when an input is the target (C20) and later a source. |
| C22 | The graph of a model contains exactly what its outputs depend on | construct_graph_this_model worklist, get_graph_node, heap of expression objects | closure invariant of the worklist; invariants over histories of expressions | proved | c22_image holds for all models; c22_contents when names are distinct. With clashing names the objects sharing a name share a node. |
| C23 | Unused declared variables are part of the representation | construct_graph_this_model worklist, get_graph_node, heap of expression objects | closure invariant of the worklist; invariants over histories of expressions | partial | False: exactly the declared variables some registered output depends on are in the graph. |
| C24 | The graph alternates variables and operations and each variable has one producer | construct_graph_this_model worklist, get_graph_node, heap of expression objects | closure invariant of the worklist; invariants over histories of expressions | partial | Proved for the expression graph of every history; for the IR graph when results have distinct names (automatic without custom/implicit operations); false when two custom operations name their outputs alike. |
| C25 | Automatic connection leaves one node per promoted name | merge_automatically_connected_nodes | fold invariants; exact survivor | proved | Sources have distinct promoted names (C15). |
| C26 | The declared variable closest to the root provides the default value | merge_automatically_connected_nodes | fold invariants; exact survivor | partial | Exact survivor characterised; false for the main model against its direct submodels, whose paths have the same number of dots. |
| C27 | The execution order respects every dependency | topological_sort (Kahn) and checks around it | loop invariant; completeness on acyclic graphs | proved | — |
| C28 | Operators on variables denote the arithmetic they look like | operator overloads, linear/power combination | denotational semantics over any field, induction over programs | partial | Value, shape and errors of all programs over any field; the part 'result has the shape of the operands' fails for ndarray operands, whose shape is never compared. |
| C29 | Generated expression strings denote the operation | compute strings as tokens | parser-level semantics of strings, induction over terms; witnesses | partial | Exact meaning of the strings; right for the operations recorded by operators on numbers, wrong for fractional coefficients, a leading negative coefficient, a zero factor and array exponents. |
| C30 | Operations never depend twice on the same variable | StandardOperation duplicate arguments | invariant over histories | proved | — |
| C31 | Implicit operations pair each state with its residual | _generate_maps | iff characterisation by induction over outputs | proved | Building the representation of the internal model (which may raise first) is not part of this model. |
| C32 | Residual dependencies are exactly the reachable leaves | collect_terminals | reachability, induction with fuel bounded by the heap | proved | — |
| C33 | Implicit operations return exposed variables in the requested order | factory as state machine, implicit operation, registration of results | invariants over histories of declarations; exact acceptance and effect | partial | The exposed variables come in registration order; the requested order is ignored. |
| C34 | Readable parameters are always valid | Parameters as state machine | invariants over call histories against a history-only specification | partial | Holds for every explicitly set value and, when no declaration raised, for every readable value. A rejected declaration leaves its invalid default readable; types=bool accepts 1; a list or set of types can never be satisfied. |
| C35 | Parameter update is all-or-nothing | Parameters as state machine | invariants over call histories against a history-only specification | partial | Refuted as stated: assignments before the offending one remain; the theorem gives exactly which. |
| C36 | Derivative declarations cover exactly the requested pairs | CustomOperation and custom with a heap of arrays | invariants over call histories | partial | Fails for wildcards that stand for nothing (the wildcard is recorded) ; names need not exist. |
| C37 | Custom operation variables have unique names | CustomOperation and custom with a heap of arrays | invariants over call histories | partial | Inputs unique; outputs may repeat or coincide with later inputs. |
| C38 | Einsum result shapes are right | einsum parsing and shapes, both APIs | induction over subscripts | partial | Proved for explicit subscripts; subscripts without an arrow are misread, unknown output letters are ignored, inconsistent operands accepted. |
| C39 | The index-object einsum API agrees with the string API | einsum parsing and shapes, both APIs | induction over subscripts | proved | — |
| C40 | Shape transformations preserve or produce the documented shapes | shape computations of std functions | list reasoning for all ranks and sizes | partial | Shapes proved for all ranks and sizes; the *_refuted theorems list the inputs that are accepted although no such array operation exists. |
| C41 | Dimension mismatches in matrix products are rejected | shape computations of std functions | list reasoning for all ranks and sizes | partial | matvec proved for matrices; matmat never compares the inner dimensions. |
| C42 | Combining operations preserves the value of every remaining variable | combine_operations on flat graphs with denotational semantics | simulation: each combination preserves the value of every remaining variable; termination measure | partial | Holds for the combination of flat graphs in which no variable is used twice and every elementwise operation has a compute string; fails otherwise (shared intermediate variables, registered outputs that are used, passthrough/print_var, RuntimeError while iterating), and combine_operations as such always raises AttributeError. |
| C43 | Optimisation data of the whole hierarchy is resolved uniquely | collection of design variables, constraints, objective | induction on trees | proved | — |
| C44 | Each model is defined once, before its submodels, and is never empty | define_models_recursively on a heap of shared models | induction with fuel | partial | Fails for shared models (defined before one of their parents), after failed builds and for with blocks (define is called again). |
| C45 | Shape and default value of a variable agree | get_shape_val | case analysis | proved | — |
| C46 | A hierarchy that obeys the promotion rules is accepted | resolve_promotions on model trees, reverse map | induction on trees against an inductive definition of promoted namespaces | proved | — |
| C47 | The size attribute of a variable is the number of its elements | size attribute | case analysis; witness | partial | Holds, over every history, for inputs, declared variables and outputs of operations; false for create_output, whose size is always 1. |
| C48 | A name visible in a model can be used there | find_promoted_name for connections and optimisation data | exact condition by induction on trees | partial | Exact acceptance condition proved; the property is false for names promoted again above the declaring model. |
| C49 | Building the representation of a model twice gives the same optimisation problem | objective bookkeeping over two builds; the whole compilation | the other passes do not read objectives (induction on trees); exact second lookup; witnesses | partial | Everything but the objective is the same; the second objective is characterised exactly, equal when it is declared by the main model or promoted to it; otherwise the second build may raise or silently name another variable. |
| C50 | Connections that obey the rules are accepted | merge_connections on digraphs, contracted_nodes | invariants of the fold over connections | proved | — |
| C51 | Declaring the same connection twice is harmless | merge_connections on digraphs, contracted_nodes | invariants of the fold over connections | partial | False; c19 (distinct targets) shows every repetition is rejected. |
| C52 | Every variable of the user's model is mapped to a node of the flat graph | merge_automatically_connected_nodes, merge_connections, add_IR_mapping | fold invariants over all calls of a compilation; exact survivor | partial | c52_compiled_*: the whole compilation, every iteration order; the mapped node is the node with the value. False, exactly characterised, for declared variables that share a supplied promoted name. |
| C53 | Adding a submodel does not affect the model's own operations | construct_graph_this_model worklist, get_graph_node, heap of expression objects | closure invariant of the worklist; invariants over histories of expressions | partial | Proved when all submodels are named; false for unnamed ones, whose name is the id of the next node. |
| C54 | Flattening keeps every operation and dependency of every model | merge_graphs, namespaces, promoted ids | mutual induction on the tree of graphs | proved | For every order in which the submodels are visited. |
| C55 | Nodes carry the promoted name of their variable | merge_graphs, namespaces, promoted ids | mutual induction on the tree of graphs | proved | For every order in which the submodels are visited. |
| C56 | Promotion connects declared variables with their source, from end to end | merge_graphs, namespaces, promoted ids | mutual induction on the tree of graphs | proved | Assumes that models use only their own variables, that named results are registered and that no chosen name is the id of one of the nodes of the program (c24_choosable_names: with at most 63^4 nodes any name without leading underscore); C53 and C57 show what happens otherwise. |
| C57 | Names a submodel does not promote stay private | merge_graphs, namespaces, promoted ids | mutual induction on the tree of graphs | partial | Proved for variables the models list; false for unregistered outputs of custom operations in a submodel, which get the empty namespace. |
| C58 | States come back with the shape of the state | factory as state machine, implicit operation, registration of results | invariants over histories of declarations; exact acceptance and effect | partial | Fails for a state of shape (1,) whose value is an array of another shape. |
| C59 | Default values for states are kept | factory as state machine, implicit operation, registration of results | invariants over histories of declarations; exact acceptance and effect | partial | Refuted: numbers are dropped, arrays raise IndexError. |
| C60 | Brackets are complete and fit the states | factory as state machine, implicit operation, registration of results | invariants over histories of declarations; exact acceptance and effect | partial | Bounds are compared with each other but not with the state. |
| C61 | Reading a parameter is determined by the calls before it | Parameters as state machine | invariants over call histories against a history-only specification | proved | — |
| C62 | A call of custom matches the operation | CustomOperation and custom with a heap of arrays | invariants over call histories | proved | — |
| C63 | Calling custom leaves the values of other variables alone | CustomOperation and custom with a heap of arrays | invariants over call histories | partial | Holds when defaults are numbers or lists; a shared array is set to zero. |
| C64 | Linear algebra functions accept exactly matching shapes | shape computations of std functions | list reasoning for all ranks and sizes | partial | quatrotvec does not look at the last dimensions. |
| C65 | diff computes the differences along an axis | std/diff.py | case analysis | partial | Refuted: diff raises for every array and axis. |
| C66 | Dead code removal removes exactly what no registered output depends on | remove_dead_code | inclusion of all nodes in the sorted list | partial | Refuted: sort_nodes_nx returns every node, so nothing is removed, and the function then raises AttributeError. |
| C67 | Calls of the model-building API are accepted exactly when they are valid | all calls of the building API | model as state machine; invariants over all call histories | proved | Bounds: numbers and one-dimensional arrays; names modelled over ASCII. |
| C68 | An accepted call records exactly what it was given | all calls of the building API | model as state machine; invariants over all call histories | proved | Submodels: see C12. |
| C69 | influences lists exactly which inputs reach which final outputs | queries of GraphRepresentation, nested implicit models | rose-tree induction; path reasoning on digraphs | partial | The first dictionary is characterised where names of final outputs are unique; its values are nodes (finding). Responses used by other operations and non-input leaves: refuted. |
| C70 | Input, output and edge counts of a representation add up | queries of GraphRepresentation, nested implicit models | rose-tree induction; path reasoning on digraphs | proved | implicit=False; nested models are C71. |
| C71 | Statistics with implicit=True cover every nested implicit operation | queries of GraphRepresentation, nested implicit models | rose-tree induction; path reasoning on digraphs | partial | Refuted for nin_vars, num_uses_of_variables, outputs_per_operation; c71_one_level_partial says what these compute. |
| C72 | max_arguments_per_operation(implicit=True) is the maximum over all nested models | queries of GraphRepresentation, nested implicit models | rose-tree induction; path reasoning on digraphs | proved | implicit=True, vectorized=True; with implicit=False the call raises (C75). |
| C73 | Serial cost counts every operation once per iteration of the implicit operations around it | queries of GraphRepresentation, nested implicit models | rose-tree induction; path reasoning on digraphs | proved | What reading the number of iterations gives is part of the model's input. |
| C74 | Parallel computation time is the number of edges of a longest path | queries of GraphRepresentation, nested implicit models | rose-tree induction; path reasoning on digraphs | partial | The documented number of operations is refuted; the result is characterised exactly. |
| C75 | Statistics of a compiled model can be asked for | queries of GraphRepresentation, nested implicit models | rose-tree induction; path reasoning on digraphs | partial | Refuted for every representation. |
| C76 | Building an expression records exactly what the call says | expression events on a heap | exact effect of each call on every object, invariants over histories | partial | Exact effect of each expression-building call on all objects. False for results of a CustomOperation object that is used twice (c76_custom_twice_refuted). |
| C77 | An implicit operation is accepted exactly when its declarations fit, and returns the states in order | factory as state machine, implicit operation, registration of results | invariants over histories of declarations; exact acceptance and effect | partial | Exact acceptance and effect for every history; the clause about rejected declarations is refuted. |
| C78 | A rejected implicit operation leaves the parent model as it was | factory as state machine, implicit operation, registration of results | invariants over histories of declarations; exact acceptance and effect | partial | Exact remaining effect of a rejected call; refuted as stated. |
| C79 | Settings of an implicit operation are checked and kept | factory as state machine, implicit operation, registration of results | invariants over histories of declarations; exact acceptance and effect | partial | Refuted for bracketed searches, which ignore both. |
| C80 | Every name of a variable accesses the same value in the simulator | SimulatorBase item access over compiled promotion maps | induction over sequences of assignments | partial | The executable of the back end is modelled as a table from promoted names to values. Refuted for names containing dots. |
| C81 | Elementwise functions compute what their names say | std/*.py and operations/*.py for elementwise functions (ArithModel elem), RealNumbers | denotational semantics over the reals, case analysis over the functions | proved | Over the real numbers of Coq.Reals; the functions of numpy are read as the real functions, undefined values as those of Coq.Reals. |
| C82 | Inverse hyperbolic functions invert the hyperbolic functions | programs of operators and functions in FunModel (body, call), run by the interpreter of ArithModel | c28 semantics plus real analysis (exp, ln, sqrt) | partial | Holds for arsinh, arcosh, artanh, arcoth; arsech is wrong for every argument strictly between 0 and 1 and arcsch returns None. |
| C83 | exp_a raises the base to the powers given | exp_a with expansion of (1,) bases and its string | case analysis over the shapes, semantics over any field | partial | Values, shapes and rejections for every base; the string is right for numbers that are not negative, wrong for negative numbers, and no expression for arrays and variables. |
| C84 | body_313 builds a rotation matrix | the nine assignments as programs of ArithModel followed by setitem of IndexModel | soundness of programs (C28), induction over the assignments, ring identities with sin^2 + cos^2 = 1 | partial | Holds for angles of shape (1, 1); variables of every other shape, in particular the default shape (1,), are rejected with ValueError. |
| C85 | B-spline matrices hold the B-spline basis functions | get_bspline_mtx with arrays changed in place over Q (SplineModel) | loop invariants: the array holds the basis functions of the current degree; induction over the degree | proved | Rational arithmetic instead of floating point; the sparse matrix is modelled as its rows. |
| C86 | Solvers have exactly the options of their table, checked when they are created | the declarations of all solver classes as histories of calls on the Parameters of ParamModel (SolverModel); a flat table of options (SolverSpec) | evaluation of the declarations of each class; invariant of update: induction over the keyword arguments | proved | recording_options, supports and descriptions are not modelled. |
| C87 | A compiled model computes what the model says | the whole constructor of GraphRepresentation as composition of the modelled passes (CompileModel); the meaning of a hierarchy as a system of equations without graphs, and execution of the compiled order on a memory indexed by nodes (CompileSpec) | the two merging passes give representative maps whose composition is a quotient of the union of the graphs; induction over the sorted order shows that execution satisfies the equations, and induction along the order that any solution agrees with it | proved | Back ends are modelled as execution of the sorted operations on a memory with one cell per node. Assumes that models do not use each other's variables, that connections lead to declared variables, and (conditions of well_formed) that the objects are as the API makes them. |
| C88 | Which hierarchies compile | the conditions under which a hierarchy should compile, without graphs: sources, sizes, connections, options, and a ranking of the variables and operations compatible with the flow of data (AcceptSpec) | acceptance lemmas of the passes (C46, C18, C48, C53, C57, C50) composed: names_consistent and admissible hold of the graph after automatic connection; the ranking makes the final graph acyclic; conversely the position in the order is a ranking | proved | Same conditions on the objects as C87; the converse assumes that no connection leads to an input (C20 shows that the code accepts some). |
| C89 | From API calls to values | a process with any number of Model objects sharing node objects and the node counter, all building calls as one state machine (WorldModel on top of ExprModel), rules of use (WorldSpec) | invariants over call histories: ownership of objects, kinds, names and listings per model; the tree of models satisfies well_formed; composed with C87 and C88; pigeonhole for self-containment | proved | Shapes are given by a function of the objects; bounds, scalers, units and values of variables are left out of this model (ApiModel, ShapeModel have them). |
| C90 | Models contain what was recorded in them | the process of C89 (WorldModel), calls described by their position in the history (WorldSpec2) | induction over the history from its end; only the model called on changes; ownership invariant of C89 for the objects | proved | Bounds, scalers, units and values are not part of this model (see ApiModel for one model). |
| C91 | The compiled program computes what the script says | scripts: the process of C89 with shapes, the data of operations (C28), and the read and assignment tables of variables (C05, C07) as one state machine (ScriptModel); the meaning of a line (ScriptSpec) | invariants over scripts (layout of copies, decompose and indexed_passthrough operations against the tables), each line's operation and data persist to the end; a solution of the equations (C87, C89) then satisfies the line; field arithmetic | proved | Keys of assignments that are not tuples are covered for one-dimensional outputs; without the restriction on negative integers the claim is false (c91_from_the_end_refuted). Numbers form any field with a power function; the back end computes each recorded operation as its documentation says. |
| C92 | Lines of a script are accepted exactly as documented | ScriptModel: pstep on whole scripts | ScriptProofs6-8: the tables of reads and assignments of each variable as invariants of the script; case analysis of each line | proved | Scripts of ScriptModel; integer keys of assignments count from the front (see C07). Literal arrays of a wrong shape are not rejected in the model (variable.py does not check them when the operation is made). |
| C93 | The indices of an assignment are found under the name of the assigned variable | ScriptModel: the tables of assignments and register_output on whole scripts | ScriptProofs9: entries are never removed, names change by register_output only; witness by computation | partial | False in general: a variable registered after it was assigned keeps its entry under the old name and can be assigned again (c93_indices_by_name_refuted). Proved when the variable is not registered afterwards. |
| C94 | A copy of a Parameters dictionary reads like the original | ParamModel: copied (__getstate__) after any history of calls | ParamProofs2: invariant relating the flag _all_recordable to the entries; witness by computation | partial | False: parameters declared with recordable=False are missing in a copy (C94_copy_reads_alike_refuted). Proved: exactly those are missing, everything else reads and accepts alike, in the same order. |
| C95 | Data of declared derivatives | DerivModel: declare_derivatives with all keyword arguments over the state of CustomModel | Prop_Deriv: refinement of CustomModel.declare_derivatives, induction on the depth of recursion and on the history | proved | — |
| C96 | Automatic names are reproducible | ApiModel: the node counter, advanced by every constructor call | Prop_Api3: counting relation [constructed] by induction on the history | proved | — |
| C97 | create_submodel blocks | BlockModel: programs of calls, raises, try and with blocks over the process of WorldModel | Prop_Block: induction on the structure of programs | proved | A call that raises inside a block is a statement without effect followed by the exception. |
| C98 | The dependencies recorded for a residual are all that its value depends on | ImplicitModel on the model objects of WorldModel, values by the compiled program of CompileModel | Prop_Implicit2: induction along the execution order; concrete program with a submodel refutes the general claim | partial | c98_exact says exactly when the recorded names are complete, for every iteration order. Proved when every variable the expression of the residual uses is given from outside. False otherwise: what reaches the residual through a submodel or a connection of the internal model is not recorded, and a state that does so is rejected. |
| C99 | Compiling does not depend on the order in which Python iterates over sets | IterModel: the compilation of CompileModel with the iteration order of every set as a parameter | Prop_Iter: the passes only look names up or add unions; uniqueness of the solution (C87) and the acceptance conditions (C88) for any order | proved | The iteration orders are parameters of the model (IterModel); conditions on the objects as for C87. |
| C100 | The value used for an unconnected declared variable is the same in every run | IterModel; the surviving node of construct_flat_graph.py:290-315 | Prop_Iter: least level and explicit value of the survivor for any order; concrete model with two orders refutes the general claim | partial | Proved when the explicit values (and the default ones) of the declarations at equal levels agree. False otherwise: two submodels that give the same promoted variable different values compile, and which value is used depends on the order of the set of submodels. |
| C101 | Every variable can be reshaped and flattened | MethodModel: the methods over the shapes of ShapeModel and the variables of ApiModel | Prop_Method: invariant on sizes over every history of calls; the three spellings reduce to one function | partial | reshape as stated; flatten works for every variable except outputs of create_output with more than one element, which raise ValueError because their size attribute is 1 (C47). Negative lengths: see C40_reshape_negative_refuted. |
| C102 | bessel accepts the kinds 1 and 2 and orders that fit | MethodModel.bessel | case analysis | proved | Numbers equal to 1 or 2 (True, 1.0) count as these kinds. |
| C103 | A failed compilation reports a broken rule | IterModel.compile_in with exceptions as values | ErrProofs: the passes before the connections succeed on every well-formed hierarchy; the remaining steps only raise KeyError and ValueError, by induction over the hierarchy | proved | For models in the sense of well_formed (C89: every program that follows the rules of WorldSpec makes one). c103_every_order assumes that no input is the target of a connection. |
| C104 | Every name of a needed variable finds its value in a compiled model | LookupModel: _find_promoted_name over the maps of a compiled model, promoted_to_node and the map of merged nodes; read_value with CompileModel.run | exact domain of promoted_to_node (ConnProofs2.maps_exact), the merges of C87 and uniqueness of the solution | proved | For models in the sense of well_formed (C89), with no input as the target of a connection. The executable of a backend is modelled by CompileModel.run; the redirection of a merged node to its source is the backend's reading of connected_tgt_nodes_to_source_nodes. |
| C105 | Design variables, constraints and objective refer to values of the compiled model | the dictionaries of CompileModel.compiled, WorldModel programs | exactness of the collecting folds (collect_opt_iff), C90 (design variables name inputs) and C104 | partial | Design variables in full. A constraint (or objective) on a declared variable that nothing uses is accepted, and no value can be read for it: c105_unused_refuted. |
| C106 | The value of a variable depends exactly on the supplied values the model makes it from | DependSpec.depends on the hierarchy; CompileModel.compile_in and run | unique solution of the equations by induction over the order of the merged graph; exactness with operations that mark what they read | proved | For models in the sense of well_formed (C89), with no input as the target of a connection. Dependence is defined on the model (DependSpec.depends), without the graph. |
| C107 | influences reports the true dependences of unused registered outputs | ViewModel: the flat graph of a compiled model as QueryModel's representation; influences | c69 on the view, paths of the view are paths of the compiled graph, c106_graph | proved | The property is stated for models whose operations all have arguments: an operation without arguments is listed as if it were an input (c69_inputs_only_refuted). ViewModel shows the flat graph of a compiled model to the queries of QueryModel. |
| C108 | A submodel computes inside a hierarchy what it computes on its own | CompileModel.compile_in and run for the hierarchy and for the model at a path | the equations of the hierarchy restricted below the path are those of the submodel (names lift along the path, SubProofs.becomes), uniqueness of solutions; acceptance through the exact conditions of C88 | proved | For models in the sense of well_formed (C89), with no input as the target of a connection. The condition on connections in the last sentence is needed: c108_alone_refuted. |
| C109 | Calls made later do not change values computed before | WorldModel.whistory of a program and of its continuation, compile_in and run of both | invariant over the later calls (objects keep sort and arguments, operations only gain results that are new plain outputs, members keep names, lists grow); the larger solution solves the smaller equations; uniqueness | proved | For programs that follow the rules of C89, with no input as the target of a connection. The conditions on what is supplied and on assignments are needed: c109_supplied_refuted, c109_assigned_refuted. |
| C110 | The order of declarations does not matter | WorldModel.whistory of two programs with calls in different orders, tree, compile_in and run of both | simulation between worlds that differ in the order of lists (methods do not look at submodels), commutation of pairs of calls, permutations through the hierarchy; C88 in both orders and C109 for values | proved | For programs that follow the rules of C89, with no input as the target of a connection; the claim about acceptance is for models with sizes that agree and promotes lists that name variables, as in C88. |
| C111 | Stating an optimization problem does not change what a model computes | WorldModel.whistory, tree and IterModel.compile_in of two programs that differ in these calls | erasure of the optimization problem commutes with every call and with building the hierarchy; each pass of the compilation is unchanged by it; acceptance of the collecting passes (C43) | proved | c111_program holds for every program; the claim about acceptance is for programs that follow the rules of C89. |
| C112 | A model added in several places computes the same function everywhere | WorldModel.whistory with a model object at the end of several paths, compile_in and run of the hierarchies | the tree of an object does not depend on the place; C108 at both places | proved | For programs that follow the rules of C89, with no input as the target of a connection, and models that compile on their own (C108 says which do). |
| C113 | Promotion and connection are interchangeable | WorldModel.whistory of two programs, compile_in and run of their hierarchies; LinkSpec.linked is the least equivalence that contains common promoted names and connections | variables kept in one node are linked and the reverse; the values computed for one hierarchy satisfy the equations of the other one; the values are unique (C87) | proved | For programs that follow the rules of C89, with no input as the target of a connection, where both hierarchies compile. |
| C114 | Names do not matter | WorldModel.whistory of two programs, compile_in and run of their hierarchies; RenameSpec.nameless erases names, same_place relates the paths of the two hierarchies | simulation of the two programs up to names and node numbers; then as C113, with the counterpart of each path | proved | For programs that follow the rules of C89, with no input as the target of a connection, where both hierarchies compile. |
| C115 | A model may be reorganised | WorldModel.whistory of two programs, compile_in and run of their hierarchies; RefactorSpec.restructured relates variables and operations of two hierarchies | induction over how the values of the first model are made (DependProofs.d_grounded); linked counterparts have equal values | proved | For programs that follow the rules of C89, with no input as the target of a connection, where both hierarchies compile. The two examples move an operation to a submodel and share an intermediate result. |
| C116 | Consistent renaming is harmless | HierModel hierarchies, compile_in and run; ConsistentSpec.rename_model replaces all names; ConsistentSpec2.rename_program replaces them in a program | promotion, resolution of names, connections and the conditions of C88 commute with the renaming and its inverse; values by C114; programs: simulation of the calls (c116_tree) | proved | For hierarchies and, through the calls that build them, for programs. For models in the sense of well_formed (C89), with no input as the target of a connection; the claim about compilation is for models with sizes that agree and promotes lists that name variables, as in C88. |

## Trusted base

* The kernel of Coq 8.16.1 (and `vm_compute`, which the kernel uses for the
  computations in examples and refutations).
* `Print Assumptions` below every property theorem prints "Closed under the
  global context", except for the theorems about real numbers (C81, C82,
  `c83_string_refuted`, `c84_body_313_partial`), which list only axioms of the standard library's
  Coq.Reals: `ClassicalDedekindReals.sig_not_dec`,
  `ClassicalDedekindReals.sig_forall_dec`,
  `FunctionalExtensionality.functional_extensionality_dep` and (through the
  theory of sin, cos and power) `Classical_Prop.classic`.  No axiom of ours is
  used.  Some files load standard library modules (through `lia`, `Lqa`,
  `Field`, ssreflect's prelude) that declare axioms (`Coq.ssr.ssrunder.*`); no
  theorem depends on them.  `coqchk` also lists the opaque module fields
  `Coq.Reals.Rdefinitions.RbaseSymbolsImpl.*` of the standard library: the real
  number operations, sealed by the library's own module type.
* The reading of `/repo` embodied in the `*Model.v` files.  The code was not
  run.  Each definition cites the lines it models; simplifications are stated
  there and collected below.
* The meaning of external libraries, as far as the modelled code relies on it,
  is modelled too and therefore trusted: Python `dict`/`set`/`range`/slices,
  int and float division (correctly rounded), `str.isalnum` on ASCII; numpy
  `arange`, `meshgrid`, `ravel_multi_index`, broadcasting of shapes;
  networkx `DiGraph`, `contracted_nodes`, `topological_sort`,
  `dag_longest_path`, `ancestors`/`descendants`.
* The specifications (`*Spec.v` and the definitions inside `Prop_*.v`), which
  say what the English properties mean.

## What is modelled

| part of /repo/csdl | files of the model | left out |
|---|---|---|
| lang/node.py, utils/gen_hex_name.py, utils/check_default_val_type.py, utils/prepend_namespace.py | NamesModel | Unicode letters in names; OverflowError for counters above 1.8e308 |
| lang/variable.py (`__getitem__`), lang/concatenation.py, utils/slice_to_list.py | IndexModel | keys other than ints, slices and tuples of them (each case raising in the code is an error value) |
| lang/variable.py (reshape, flatten), std/reshape.py, std/bessel.py, operations/bessel.py | MethodModel | |
| lang/variable.py (operators), operations/linear_combination.py, power_combination.py, lang/standard_operation.py | ArithModel, ComputeModel | floating-point rounding, NaN, infinities: numbers are elements of a field with a power function and an order |
| std/*.py, operations/*.py of elementwise functions, std/exp_a.py, inverse hyperbolic functions | ArithModel (elem, exp_a), FunModel, RealNumbers | numpy's functions are read as the real functions of Coq.Reals |
| std/rotations/body/body_313.py | RotModel | — |
| utils/get_bspline_mtx.py | SplineModel | floating-point rounding, the sparse matrix object |
| solvers/ (all classes) | SolverModel (options) | recording_options, supports, descriptions; CSDL defines no solve methods here |
| lang/model.py (creation of variables, outputs, submodels, connections, optimisation data), utils/get_shape_val.py, utils/check_default_val_type.py | ApiModel | warnings; bounds of rank above 1 |
| lang/node.py, operation.py, output.py, subgraph.py, std/custom.py, as histories of object creations | ExprModel, EffectSpec | shapes (in ApiModel, ArithModel, ShapeModel) |
| lang/define_models_recursively.py, `with` blocks | DefineModel | what user code in `define` does to other models |
| lang/custom_operation.py, std/custom.py | CustomModel | units, data stored with a derivative, dtypes |
| lang/model.py (implicit operations), implicit_operation_factory.py, implicit_operation.py, bracketed_search_operation.py, utils/collect_terminals.py | ImplicitModel, FactoryModel | the representation built for the internal model (which may raise first) |
| utils/parameters.py | ParamModel | infinities, containers as values, user-defined comparison, __repr__ |
| std/*.py: shapes of results and rejected arguments; utils/einsum_utils.py; std/diff.py | ShapeModel, EinsumModel, DiffModel | values computed at run time (left to back ends by csdl) |
| rep/resolve_promotions.py | PromotionsModel | |
| rep/collect_connections.py, collect_design_variables.py, collect_constraints.py, find_objective.py, find_promoted_name.py | HierModel | warnings |
| rep/construct_unflat_graph.py | UnflatModel | analytics attributes |
| rep/construct_flat_graph.py (merge_graphs, merge_automatically_connected_nodes), merge_connections.py | FlattenModel, FlatModel | `declared_to`, used by analytics only |
| rep/sort_nodes_nx.py | TopoModel | — |
| rep/graph_representation.py: `__init__` (in the passes above) and all queries | QueryModel, HierModel, FlatModel, TopoModel | drawing, printing, writing of files |
| rep/graph_representation.py: `__init__` as a whole | CompileModel, IterModel | the tree of user_declared_connections, analytics |
| opt/combine_operations.py, remove_dead_code.py | CombineModel | pruning of the unflat graph after dead code removal (never reached) |
| sim/simulator_base.py: access by name | SimModel, LookupModel (over a compiled model) | the executable (abstract in the repository; LookupModel reads the values of CompileModel.run) |
| rep/graph_representation.py: influences on a compiled model | ViewModel (flat graph of CompileModel as QueryModel's representation) | the representations inside implicit operations, which influences does not read |
| lang/model.py, node.py: several models built in one process, then compiled together | WorldModel | bounds, scalers, units, values; shapes are given by a function |
| whole scripts: calls, operators, reads and assignments together | ScriptModel | target indices are found by position, not by name (see the comment there) |
Not modelled: back ends (not in the repository); `csdl/examples`, `csdl/tests`
and the generators of documentation; drawing of graphs; texts of errors and
warnings; running time and memory; code that nothing calls (`utils/graph.py`,
`opt/remove_duplicate_nodes.py`, `rep/set_default_values.py`,
`rep/detect_cycle.py`, `rep/check_for_promotion_induced_cycles.py`,
`std/if_else.py`, `utils/process_parameters.py`,
`utils/structure_data.py`, `rep/collect_promoted_variable_names.py`,
`rep/collect_connections2.py`, `rep/add_model_var_dependencies.py`,
`rep/add_dependencies_due_to_connections.py`, `rep/merge_promoted_nodes.py`,
`rep/store_abs_promoted_names_in_each_node.py`,
`rep/apply_fn_to_implicit_operation_nodes.py`, `utils/remove_unused_outputs.py`,
`utils/format_number.py`, `utils/get_array_indices.py`).

## Findings

The `_refuted` theorems are witnesses of behaviour that contradicts what a user
would expect of the API; the column "remarks" above names them.  Those most
likely to bite: node identifiers repeat after 62*63^4 nodes (C01); automatic
submodel names clash with the next node (C02, C53); `y[-1]` and `y[n-1]` may
both be assigned (C07); a rejected overlapping assignment is recorded anyway
(C08); inputs and declared variables may reuse names (C09); promoted variables
of unrelated submodels may disagree in size (C16); connections to inputs are
accepted (C20); the main model ties with its direct submodels for default values
(C26); fractional or negative leading coefficients produce wrong strings (C29);
`expose` order is ignored (C33); a rejected parameter declaration leaves its
default readable (C34); `matmat` accepts mismatched matrices (C41);
`combine_operations`, `diff`, dead code removal and many statistics always raise
(C42, C65, C66, C75); default values for states are dropped (C59, C79).

## Agreement with the repository's tests

`Conformance.v` transcribes the programs of `examples/ex_connections.py` and
`ex_promotions.py` as histories of WorldModel, and `Conformance2.v` the calls of
19 other example files (indexing, shapes of results, rejected arguments);
`Conformance3.v` runs seven whole programs of `test_explicit.py` and
`test_indices.py` from script to values; `Conformance4.v` applies the implicit
operations of `ex_implicit.py`, `ex_implicit_expose.py` and
`ex_bracketed_search.py` to the models their scripts build.  The
model gives, in every case, what the test files expect: the same exception class
or the same values and shapes.  These are tests of the model against the
authors' own expectations, not proofs of properties; they are here because the
code itself cannot be run.  Three tests of the repository expect an exception
that csdl itself does not raise: two are left to the back end (max and min of
several inputs with an axis), one stops in numpy before csdl is called (matmat).

## Testing the theorems

`seeded/LOG.jsonl` records edits of the model that imitate realistic bugs, and
which theorems failed to prove after each.  An edit none of whose claims failed
led to a stronger theorem (field `tightened`).
