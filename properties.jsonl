{"id": "C01", "title": "Index sets stay sorted and duplicate-free", "statement": "Whatever sequence of add, remove, update, clear, delete, shift_right and shift_left calls is made on an index-operations object, directly or through any nesting of views, the index array reported for every property is strictly increasing (sorted, no index twice), and items() reports each property at most once and never with an empty array.", "quantifier": "every finite sequence of operations, with arbitrary index lists (unsorted, repeated, empty), starting from a new object", "why_tests_cant": "a test fixes one sequence and a handful of indices; the claim is an invariant of all histories", "anchors": ["paramz/core/index_operations.py:ParameterIndexOperations", "paramz/core/index_operations.py:ParameterIndexOperationsView", "paramz/core/index_operations.py:combine_indices"]}
{"id": "C02", "title": "add and remove have exact set semantics", "statement": "After add(p, I) index i carries p iff it did before or i is in I; after remove(p, I) iff it did before and i is not in I; no other property and no other index changes; remove returns exactly the indices that carried p and were in I.", "quantifier": "every object state, property and index list", "why_tests_cant": "the frame part (nothing else changes) ranges over all other properties and indices", "anchors": ["paramz/core/index_operations.py:ParameterIndexOperations.add", "paramz/core/index_operations.py:ParameterIndexOperations.remove", "paramz/core/index_operations.py:remove_indices"]}
{"id": "C03", "title": "Block insertion and deletion renumber exactly", "statement": "shift_right(start,size) moves every index >= start up by size and leaves the rest; shift_left(start,size) drops exactly the indices in [start,start+size) and moves the later ones down by size; shift_left(start,size) after shift_right(start,size) restores every property's index set.", "quantifier": "every state, start and non-negative size, on an object or a view", "why_tests_cant": "off-by-one errors at block boundaries show only for particular index placements", "anchors": ["paramz/core/index_operations.py:ParameterIndexOperations.shift_right", "paramz/core/index_operations.py:ParameterIndexOperations.shift_left"]}
{"id": "C04", "title": "A view is an exact window", "statement": "Reading a property through a view (or a view of a view, to any depth) returns exactly the underlying indices inside the window, renumbered from 0; add and remove through the view act on exactly the correspondingly offset underlying indices and on nothing else.", "quantifier": "every nesting of views, every offset, size, state, property and index list", "why_tests_cant": "nesting depth and window position are unbounded", "anchors": ["paramz/core/index_operations.py:ParameterIndexOperationsView"]}
{"id": "C05", "title": "Clearing a view empties the window and only the window", "statement": "clear() on a view removes every property from every index inside the window and changes no index outside it; copy() of an object or view reports the same items and later operations on the original do not change the copy.", "quantifier": "every state, window and later operation", "why_tests_cant": "non-interference must hold for every later history", "anchors": ["paramz/core/index_operations.py:ParameterIndexOperationsView.clear", "paramz/core/index_operations.py:ParameterIndexOperationsView.copy", "paramz/core/index_operations.py:ParameterIndexOperations.copy"]}
{"id": "C06", "title": "properties_for and properties_dict_for agree with the stored sets", "statement": "properties_for(I) returns one list per entry of I holding exactly the properties that contain that index; properties_dict_for(I) maps each property to exactly the entries of I that carry it, in order, and to nothing else.", "quantifier": "every state and every index list, also with repeats", "why_tests_cant": "universally quantified agreement between two lookups", "anchors": ["paramz/core/index_operations.py:properties_for", "paramz/core/index_operations.py:properties_dict_for", "paramz/core/index_operations.py:extract_properties_to_index"]}
{"id": "C07", "title": "Looking up a property is observably read-only", "statement": "obj[p] for a p that was never added returns an empty array and changes nothing that items(), properties(), indices(), size or any other lookup reports, before or after any later operations.", "quantifier": "every state, property and later lookup", "why_tests_cant": "the lookup does insert a key internally; harmlessness is needed for every later read", "anchors": ["paramz/core/index_operations.py:ParameterIndexOperations.__getitem__", "paramz/core/lists_and_dicts.py:IntArrayDict"]}
{"id": "C08", "title": "Observers are called by descending priority, ties in registration order", "statement": "After any history of add_observer, remove_observer and change_priority, a notification calls the registered callbacks in order of decreasing priority, and among equal priorities in the order in which they were registered.", "quantifier": "every history of registrations and removals, all priorities including minus infinity", "why_tests_cant": "ordering is an invariant over histories", "anchors": ["paramz/core/lists_and_dicts.py:ObserverList.add", "paramz/core/observable.py:Observable.add_observer", "paramz/core/observable.py:Observable.change_priority"]}
{"id": "C09", "title": "A notification reaches exactly the observers above the threshold", "statement": "notify_observers(which, min_priority) calls exactly the callbacks registered with priority > min_priority (all of them for None), each once, in order, passing the observable and the originator (the observable itself if none is given); it calls nothing while updates are off.", "quantifier": "every observer list, threshold and originator", "why_tests_cant": "early exit from the loop is right only because of the ordering invariant over all histories", "anchors": ["paramz/core/observable.py:Observable.notify_observers"]}
{"id": "C10", "title": "Removing an observer removes exactly its registrations", "statement": "remove_observer(o) removes every registration of o and remove_observer(o, c) every registration of o with callback c; all other registrations stay, in the same order and with the same priority; change_priority(o,c,p) leaves exactly one registration of (o,c), with priority p.", "quantifier": "every observer list with repeats of observers, callbacks and priorities", "why_tests_cant": "frame condition over arbitrary lists", "anchors": ["paramz/core/observable.py:Observable.remove_observer", "paramz/core/lists_and_dicts.py:ObserverList.remove", "paramz/core/observable.py:Observable.change_priority"]}
{"id": "C11", "title": "A notification round works on a snapshot", "statement": "If callbacks add or remove observers (or start further notifications) during a notification, the round in progress still calls exactly the callbacks that were registered when it started, in order; the changes take effect from the next round on.", "quantifier": "every behaviour of the callbacks", "why_tests_cant": "re-entrancy: the set of interleavings is unbounded", "anchors": ["paramz/core/lists_and_dicts.py:ObserverList.__iter__", "paramz/core/lists_and_dicts.py:ObserverList.flush", "paramz/core/observable.py:Observable.notify_observers"]}
{"id": "C12", "title": "A cacher holds at most limit results", "statement": "After any history of calls, input changes, resets, switching off and on, a cacher with limit n>=1 holds at most n results and the least recently added one is dropped first.", "quantifier": "every history and every positive limit", "why_tests_cant": "bound over all histories", "anchors": ["paramz/caching.py:Cacher.ensure_cache_length", "paramz/caching.py:Cacher.add_to_cache"]}
{"id": "C13", "title": "Caching is transparent", "statement": "For any history of calls, changes of observable inputs, resets, failures and switching the cache off and on, a call through the cacher returns what calling the operation now on the same arguments would return, or raises what it would raise, provided the operation is a function of the (non-ignored) argument contents, the limit is positive, all calls bind the same keyword names, and an observable input is changed only while its updates are on, by operations that notify its own observers.", "quantifier": "every operation, history, set of inputs and limit", "why_tests_cant": "stale results appear only for particular interleavings of calls, changes and evictions", "anchors": ["paramz/caching.py:Cacher.__call__", "paramz/caching.py:Cacher.on_cache_changed"]}
{"id": "C14", "title": "A retained unchanged result is not recomputed", "statement": "If a result for the same argument objects is retained and no argument has changed since, the call does not run the operation and returns the retained result; in particular fewer than limit other new calls in between do not evict it.", "quantifier": "every history", "why_tests_cant": "needs every interleaving of other calls", "anchors": ["paramz/caching.py:Cacher.__call__", "paramz/caching.py:Cacher.ensure_cache_length"]}
{"id": "C15", "title": "Different argument objects never share a cache entry", "statement": "Two calls are given the same cache identifier iff they have the same sequence of (non-ignored) argument objects.", "quantifier": "all finite lists of object identities", "why_tests_cant": "string concatenation of addresses: injectivity over all addresses", "anchors": ["paramz/caching.py:Cacher.prepare_cache_id", "paramz/caching.py:Cacher.id"]}
{"id": "C16", "title": "The cacher observes exactly the retained inputs", "statement": "At any time the cacher is registered exactly once with each observable that occurs in a retained entry and with no other observable; after reset or disable it is registered with none.", "quantifier": "every history", "why_tests_cant": "leak freedom over all histories", "anchors": ["paramz/caching.py:Cacher.add_to_cache", "paramz/caching.py:Cacher.ensure_cache_length", "paramz/caching.py:Cacher.reset"]}
{"id": "C17", "title": "A failing operation leaves an empty, working cache", "statement": "If the operation raises in a call that goes through the cache, the exception reaches the caller, no entries and no registrations remain, and later calls behave as from a fresh cacher.", "quantifier": "every history and failure point", "why_tests_cant": "failure can occur after any history", "anchors": ["paramz/caching.py:Cacher.__call__", "paramz/caching.py:Cacher.reset"]}
{"id": "C18", "title": "Keyword arguments are keyed correctly", "statement": "The order in which keyword arguments are given does not matter, and calls that bind different keyword names are never confused with each other.", "quantifier": "all argument lists and keyword dictionaries", "why_tests_cant": "quantifies over pairs of calls", "anchors": ["paramz/caching.py:Cacher.combine_inputs"]}
{"id": "C19", "title": "Changing an input through a slice of it invalidates the cache", "statement": "After an element of a cached observable array is changed through a slice (numpy view) of that array, the next cached call sees the new contents.", "quantifier": "all arrays, slices and histories", "why_tests_cant": "aliasing between array objects", "anchors": ["paramz/caching.py:Cacher.on_cache_changed", "paramz/core/observable_array.py:ObsAr.__array_finalize__"]}
{"id": "C20", "title": "Nested or concurrent calls keep the cache consistent", "statement": "When calls to the same cacher overlap (the operation calls the cacher, or two threads use it), later non-overlapping calls still return what the operation would return and the limit still holds.", "quantifier": "every interleaving of call starts and completions", "why_tests_cant": "schedule-dependent", "anchors": ["paramz/caching.py:Cacher.__call__"]}
{"id": "C21", "title": "Transformations map every real into the constraint's domain", "statement": "f of the positive transformations (Logexp, Exponent, Square) is positive (Square: non-negative), f of the negative ones is negative, and f of Logistic(lower,upper) is strictly between lower and upper, for every optimizer value.", "quantifier": "all real inputs and all bounds lower<upper", "why_tests_cant": "uncountable input space", "anchors": ["paramz/transformations.py:Logexp.f", "paramz/transformations.py:Exponent.f", "paramz/transformations.py:NegativeLogexp.f", "paramz/transformations.py:NegativeExponent.f", "paramz/transformations.py:Square.f", "paramz/transformations.py:Logistic.f"]}
{"id": "C22", "title": "finv undoes f", "statement": "finv(f(x)) = x for every optimizer value x in the transformation's working range (inside the clipping limits; Square: x>=0), with a stated error bound elsewhere.", "quantifier": "all reals in the working range", "why_tests_cant": "uncountable input space, boundary cases at the clipping limits", "anchors": ["paramz/transformations.py:Logexp.finv", "paramz/transformations.py:Exponent.finv", "paramz/transformations.py:NegativeLogexp.finv", "paramz/transformations.py:NegativeExponent.finv", "paramz/transformations.py:Square.finv", "paramz/transformations.py:Logistic.finv"]}
{"id": "C23", "title": "f undoes finv on the domain", "statement": "f(finv(y)) = y for every model value y inside the domain and the clipping limits, so constraining a parameter and reading the optimizer array back does not change its value.", "quantifier": "all model values in the domain", "why_tests_cant": "uncountable input space", "anchors": ["paramz/transformations.py:Transformation.f", "paramz/transformations.py:Transformation.finv"]}
{"id": "C24", "title": "gradfactor is the chain rule", "statement": "gradfactor(f(x), dL) = dL * f'(x) at every point x of the working range.", "quantifier": "all reals and all incoming gradients", "why_tests_cant": "derivative identities over the reals; numerical checks are approximate and local", "anchors": ["paramz/transformations.py:Logexp.gradfactor", "paramz/transformations.py:Exponent.gradfactor", "paramz/transformations.py:NegativeLogexp.gradfactor", "paramz/transformations.py:NegativeExponent.gradfactor", "paramz/transformations.py:Square.gradfactor", "paramz/transformations.py:Logistic.gradfactor"]}
{"id": "C25", "title": "initialize makes values admissible and leaves admissible values alone", "statement": "initialize returns a value in the (closed) domain for every input, returns admissible inputs unchanged, and is idempotent.", "quantifier": "all reals, all bounds", "why_tests_cant": "uncountable input space", "anchors": ["paramz/transformations.py:Logexp.initialize", "paramz/transformations.py:Logistic.initialize", "paramz/transformations.py:NegativeLogexp.initialize", "paramz/transformations.py:NegativeExponent.initialize"]}
{"id": "C26", "title": "log_jacobian is the log of the derivative and log_jacobian_grad its derivative", "statement": "For Logexp and Exponent (and the classes inheriting these methods), log_jacobian(f(x)) = log |f'(x)| and log_jacobian_grad is the derivative of log_jacobian with respect to the model value.", "quantifier": "all reals in the working range", "why_tests_cant": "derivative identities over the reals", "anchors": ["paramz/transformations.py:Logexp.log_jacobian", "paramz/transformations.py:Exponent.log_jacobian"]}
{"id": "C27", "title": "Equal constraints are the same object", "statement": "Constructing a transformation class twice, or Logistic twice with equal bounds while an earlier instance is still in use, yields the same object; different classes or bounds yield different objects; so unconstrain_positive and unconstrain_bounded(l,u) find the constraint set earlier.", "quantifier": "every history of constructions and object deaths", "why_tests_cant": "history-dependent instance tables", "anchors": ["paramz/transformations.py:Transformation.__new__", "paramz/transformations.py:Logistic.__new__"]}
{"id": "C28", "title": "Sizes add up", "statement": "After any history of link and unlink calls, the size of every parameterized object is the sum of the sizes of its children, and each child knows its parent and its position.", "quantifier": "every history of link/unlink on any forest of objects", "why_tests_cant": "invariant over histories and tree shapes", "anchors": ["paramz/parameterized.py:Parameterized.link_parameter", "paramz/parameterized.py:Parameterized.unlink_parameter"]}
{"id": "C29", "title": "Linking and unlinking carry constraints along", "statement": "link_parameter and unlink_parameter leave, for every parameter in the hierarchies involved, exactly the same constraints on exactly the same elements as before the call, as read on the parameter itself; the parent reports them at the child's offset.", "quantifier": "every hierarchy shape, insertion position and constraint layout", "why_tests_cant": "unbounded shapes; offset errors show only for particular layouts", "anchors": ["paramz/parameterized.py:Parameterized.link_parameter", "paramz/parameterized.py:Parameterized.unlink_parameter", "paramz/core/indexable.py:Indexable._parent_changed", "paramz/core/indexable.py:Indexable._disconnect_parent"]}
{"id": "C30", "title": "A constraint set anywhere is seen everywhere", "statement": "After x.constrain/fix/unconstrain on any object x of the hierarchy, each ancestor and descendant reports exactly the corresponding change at its own offset, and no element outside x changes.", "quantifier": "every hierarchy, object and constraint history", "why_tests_cant": "all pairs of objects in all trees", "anchors": ["paramz/core/indexable.py:Indexable._add_to_index_operations", "paramz/core/indexable.py:Indexable._remove_from_index_operations", "paramz/core/indexable.py:Indexable._offset_for"]}
{"id": "C31", "title": "Illegal links are rejected without effect", "statement": "Linking a parameter that is already a child, linking a parameter into an ancestor of its own hierarchy, or linking an object below itself raises HierarchyError, and leaves the hierarchy as it was.", "quantifier": "every hierarchy and pair of objects", "why_tests_cant": "error paths from every state", "anchors": ["paramz/parameterized.py:Parameterized.link_parameter", "paramz/core/parameter_core.py:Parameterizable.traverse_parents"]}
{"id": "C32", "title": "At most one transformation per element", "statement": "After any history of constrain, fix, unfix, unconstrain, link and unlink, no parameter element carries two transformations (fixing not counted).", "quantifier": "every history", "why_tests_cant": "invariant over histories", "anchors": ["paramz/core/constrainable.py:Constrainable.constrain", "paramz/core/constrainable.py:Constrainable.unconstrain"]}
{"id": "C33", "title": "Fixing is reversible", "statement": "fix() followed by unfix() restores exactly the constraints before fix(); constrain() on a fixed parameter removes the fix and the earlier transformation on exactly its own elements.", "quantifier": "every hierarchy, object and prior constraints", "why_tests_cant": "all prior states", "anchors": ["paramz/core/constrainable.py:Constrainable.constrain_fixed", "paramz/core/constrainable.py:Constrainable.unconstrain_fixed", "paramz/core/constrainable.py:Constrainable.constrain"]}
{"id": "C34", "title": "The set of free elements matches the fix constraints", "statement": "On the top object of a hierarchy, the elements handed to the optimizer are at all times exactly those not constrained to be fixed; the same holds for the optimizer array of every sub-object.", "quantifier": "every history", "why_tests_cant": "a cached mask must stay in step with the constraints over all histories", "anchors": ["paramz/core/constrainable.py:Constrainable._ensure_fixes", "paramz/core/constrainable.py:Constrainable._set_fixed", "paramz/core/constrainable.py:Constrainable._set_unfixed", "paramz/core/constrainable.py:Constrainable._connect_fixes"]}
{"id": "C35", "title": "One copy of the parameters in memory", "statement": "After construction, link or unlink, element i of a leaf and the corresponding element of each ancestor's param_array are the same memory: a write through one is read through the other.", "quantifier": "every tree shape and write", "why_tests_cant": "aliasing over unbounded trees", "anchors": ["paramz/core/parameter_core.py:OptimizationHandlable._propagate_param_grad", "paramz/parameterized.py:Parameterized._connect_parameters"]}
{"id": "C36", "title": "Linking and unlinking preserve parameter values", "statement": "link_parameter and unlink_parameter do not change the value of any element of any parameter involved, whatever uninitialised memory contains.", "quantifier": "every hierarchy shape, position of the change and content of fresh memory", "why_tests_cant": "depends on tree depth and on the content of uninitialised memory", "anchors": ["paramz/core/parameter_core.py:OptimizationHandlable._propagate_param_grad", "paramz/parameterized.py:Parameterized._connect_parameters", "paramz/core/parameter_core.py:Parameterizable.param_array"]}
{"id": "C37", "title": "The optimizer array round-trips", "statement": "Setting optimizer_array to x and reading it returns x, its length is the number of non-fixed elements, and reading it and setting it back leaves all parameter values unchanged.", "quantifier": "every constraint layout, mask and vector", "why_tests_cant": "all combinations of constraints and fixes", "anchors": ["paramz/core/parameter_core.py:OptimizationHandlable.optimizer_array"]}
{"id": "C38", "title": "Setting the optimizer array respects fixes and constraints", "statement": "After setting optimizer_array every fixed element has its old value and every free constrained element equals the transformation's f of the given entry, every free unconstrained element the entry itself.", "quantifier": "every layout and vector", "why_tests_cant": "all combinations", "anchors": ["paramz/core/parameter_core.py:OptimizationHandlable.optimizer_array"]}
{"id": "C39", "title": "The optimizer array is never stale", "statement": "Reading optimizer_array at any time returns the untransformed current values of the free elements under the current constraints, whatever happened since the last read.", "quantifier": "every history of reads, value changes, constraint changes and update switches", "why_tests_cant": "a cached copy over all histories", "anchors": ["paramz/core/parameter_core.py:OptimizationHandlable.optimizer_array", "paramz/core/parameter_core.py:Parameterizable._parameters_changed_notification"]}
{"id": "C40", "title": "Gradients handed to the optimizer are aligned and transformed", "statement": "The transformed gradient has the length and element order of optimizer_array, and each entry is the raw gradient times the gradient factor of the element's transformation.", "quantifier": "every layout of constraints and fixes", "why_tests_cant": "all combinations", "anchors": ["paramz/core/parameter_core.py:OptimizationHandlable._transform_gradients"]}
{"id": "C41", "title": "Transformed indices point at the right optimizer entries", "statement": "The index set checkgrad uses for a parameter selects, out of optimizer_array, exactly the entries that belong to the free elements of that parameter, in order.", "quantifier": "every mask and index set", "why_tests_cant": "all masks", "anchors": ["paramz/core/indexable.py:Indexable._raveled_index_for_transformed"]}
{"id": "C42", "title": "A changed parameter updates each ancestor exactly once, bottom-up", "statement": "Assigning to a parameter runs parameters_changed once on each object above it, nearest first, and on nothing else.", "quantifier": "every tree and parameter", "why_tests_cant": "tree shapes unbounded", "anchors": ["paramz/core/parameter_core.py:Parameterizable._pass_through_notify_observers", "paramz/core/observable.py:Observable.notify_observers", "paramz/core/observable_array.py:ObsAr.__setitem__"]}
{"id": "C43", "title": "An update of an object runs children first, each once", "statement": "trigger_update on an object runs parameters_changed exactly once on every object below it that is not fixed (children before parents), then on the object, then on the objects above it, nearest first.", "quantifier": "every tree and set of fixed parameters", "why_tests_cant": "tree shapes unbounded", "anchors": ["paramz/core/parameter_core.py:OptimizationHandlable._trigger_params_changed", "paramz/core/updateable.py:Updateable.trigger_update"]}
{"id": "C44", "title": "Switching updates off silences the hierarchy and switching on catches up", "statement": "After update_model(False) on any object no parameters_changed runs anywhere in the hierarchy; update_model(True) runs one update.", "quantifier": "every hierarchy and history of changes in between", "why_tests_cant": "all histories", "anchors": ["paramz/core/updateable.py:Updateable.update_model", "paramz/core/updateable.py:Updateable.trigger_update"]}
{"id": "C45", "title": "traverse visits every object once, parents first", "statement": "traverse calls the visitor exactly once for the object and for everything below it, in pre-order, and can be repeated.", "quantifier": "every tree and visitor", "why_tests_cant": "tree shapes unbounded", "anchors": ["paramz/core/parameter_core.py:Parameterizable.traverse", "paramz/core/parameter_core.py:Parameterizable.traverse_parents"]}
{"id": "C46", "title": "A failed operation leaves searching intact", "statement": "After a visitor raises (as in a rejected link), later traversals, regular-expression lookups and update switches still reach every object.", "quantifier": "every tree and failure point", "why_tests_cant": "failure points unbounded", "anchors": ["paramz/core/parameter_core.py:Parameterizable.traverse", "paramz/parameterized.py:Parameterized.link_parameter", "paramz/parameterized.py:Parameterized.grep_param_names"]}
{"id": "C47", "title": "Printable names are identifiers", "statement": "The printing form of a name is a valid Python identifier, or NameError is raised; names that already are identifiers are unchanged, so the conversion is idempotent.", "quantifier": "every string", "why_tests_cant": "all strings", "anchors": ["paramz/core/nameable.py:adjust_name_for_printing"]}
{"id": "C48", "title": "Sibling names are unique", "statement": "After linking or renaming, no two children of one object have the same name, unless a recursion error was raised; names are changed only where there was a conflict.", "quantifier": "every list of names and every rename", "why_tests_cant": "all name collections, recursive renaming", "anchors": ["paramz/core/parameter_core.py:Parameterizable._add_parameter_name", "paramz/core/parameter_core.py:Parameterizable._name_changed"]}
{"id": "C49", "title": "Isolated evaluation failures are tolerated, persistent ones are raised", "statement": "During optimization, up to the allowed number of consecutive failing evaluations are reported as infinite objective; the next consecutive failure raises the original exception; a success resets the count.", "quantifier": "every sequence of successes and failures over the three evaluation callbacks", "why_tests_cant": "all failure schedules", "anchors": ["paramz/model.py:Model._objective", "paramz/model.py:Model._grads", "paramz/model.py:Model._objective_grads"]}
{"id": "C50", "title": "optimize_restarts ends at the best run", "statement": "After optimize_restarts the model is at the solution of the run with the smallest objective among the runs of this call; if all runs failed and robust is set, at the initial values; without robust the first failure is raised.", "quantifier": "every sequence of run outcomes, any number of restarts and earlier runs", "why_tests_cant": "all outcome sequences", "anchors": ["paramz/model.py:Model.optimize_restarts", "paramz/model.py:Model.optimize"]}
{"id": "C51", "title": "get_optimizer resolves names predictably", "statement": "get_optimizer(s) returns the first optimizer, in alphabetical order, whose name contains s ignoring case, each registered full name resolves to its own optimizer, and KeyError is raised iff no name contains s.", "quantifier": "every string", "why_tests_cant": "all strings", "anchors": ["paramz/optimization/optimization.py:get_optimizer"]}
{"id": "C52", "title": "SCG never increases the objective and returns what it logged", "statement": "For every objective and gradient function, the logged objective values of an SCG run are non-increasing, the last one is the objective at the returned point, and it is at most the objective at the start.", "quantifier": "all functions f, gradf, starting points with non-zero gradient, tolerances and iteration limits", "why_tests_cant": "all objective functions", "anchors": ["paramz/optimization/scg.py:SCG"]}
{"id": "C53", "title": "SCG terminates within its budget", "statement": "SCG makes at most maxiters iterations, logs one value per iteration plus the initial one, evaluates at most 2+3*maxiters times, and reports 'maxiter exceeded' iff no convergence test fired.", "quantifier": "all functions, starting points and limits", "why_tests_cant": "all runs", "anchors": ["paramz/optimization/scg.py:SCG"]}
{"id": "C54", "title": "SCG steps are well defined", "statement": "In every iteration of SCG the curvature, step-size and scale quantities stay in range (descent direction, positive curvature, scale within its bounds), so no division by zero occurs.", "quantifier": "all functions, starting points with non-zero gradient and gtol>=0", "why_tests_cant": "all runs", "anchors": ["paramz/optimization/scg.py:SCG"]}
{"id": "C55", "title": "Assigning through a concatenation sets exactly the selected elements", "statement": "m[regexp][s] = v assigns v to exactly the elements selected by s of the concatenated parameters and leaves all others.", "quantifier": "all parameter lists, index selections and values", "why_tests_cant": "all selections", "anchors": ["paramz/param.py:ParamConcatenation.__setitem__"]}
{"id": "C56", "title": "Every assignment through a concatenation updates the model", "statement": "Each assignment or constraint made through a concatenation object runs the update of every object above the affected parameters, children before parents, however often the concatenation object is used.", "quantifier": "all hierarchies and number of uses", "why_tests_cant": "history-dependent", "anchors": ["paramz/param.py:ParamConcatenation.update_all_params", "paramz/param.py:ParamConcatenation.__init__"]}
{"id": "C57", "title": "Indexing a concatenation returns the selected values", "statement": "m[regexp][s] gives the values of exactly the selected elements, in order, whatever the values are.", "quantifier": "all values and selections", "why_tests_cant": "value-dependent filtering", "anchors": ["paramz/param.py:ParamConcatenation.__getitem__"]}
{"id": "C58", "title": "Flat indices of a parameter enumerate its elements in memory order", "statement": "The flat index of element (i1,..,ik) of a parameter of any shape is its C-order position; it is a bijection onto 0..size-1 and increasing in lexicographic order.", "quantifier": "every shape and dimension", "why_tests_cant": "all shapes", "anchors": ["paramz/param.py:Param._raveled_index", "paramz/param.py:Param._indices"]}
{"id": "C59", "title": "checkgrad leaves parameter values and gradients as they were", "statement": "After checkgrad, verbose or not, every parameter has its value and every gradient entry the value the model computes at these parameters.", "quantifier": "all models and constraint layouts", "why_tests_cant": "all models", "anchors": ["paramz/model.py:Model._checkgrad"]}
{"id": "C60", "title": "randomize leaves fixed elements and the update switch alone", "statement": "randomize changes only non-fixed elements, and afterwards the update switch is as before and the model has been updated if it was on.", "quantifier": "every layout and random draw", "why_tests_cant": "all draws", "anchors": ["paramz/core/parameter_core.py:OptimizationHandlable.randomize"]}
{"id": "C61", "title": "Wrapping an observable array again keeps its observers", "statement": "Calling ObsAr(a) on an array a that already is an ObsAr returns it with all its observers still registered.", "quantifier": "every observable array and set of registered observers", "why_tests_cant": "history-dependent state", "anchors": ["paramz/core/observable_array.py:ObsAr.__new__"]}
{"id": "C62", "title": "Any integer limit gives a working, bounded cacher", "statement": "For every integer limit a cacher returns what the operation returns and holds a bounded number of results.", "quantifier": "all integers as limit", "why_tests_cant": "edge values", "anchors": ["paramz/caching.py:Cacher.ensure_cache_length"]}
{"id": "C63", "title": "Changes made while updates are off are seen once updates are on again", "statement": "If an observable input is changed while its updates are switched off, cached calls made after updates are switched on again return the result for the new contents.", "quantifier": "all histories with switches of the update flag", "why_tests_cant": "history-dependent", "anchors": ["paramz/caching.py:Cacher.on_cache_changed", "paramz/core/observable.py:Observable.set_updates"]}
{"id": "C64", "title": "SCG stops at its evaluation limit", "statement": "SCG makes no new iteration once max_f_eval evaluations have been made.", "quantifier": "all functions, starting points and limits", "why_tests_cant": "all runs", "anchors": ["paramz/optimization/scg.py:SCG"]}
{"id": "C65", "title": "An optimizer vector of the wrong length is rejected", "statement": "Setting optimizer_array to a vector whose length is not the number of free elements raises an error and changes nothing.", "quantifier": "every hierarchy, constraint layout and vector", "why_tests_cant": "vectors and layouts are unbounded; tests use matching lengths", "anchors": ["paramz/core/parameter_core.py:95-124"]}
{"id": "C66", "title": "Children are attributes", "statement": "After a successful link, unlink or rename, every child is an attribute of its parent under the printing form of its name, and no attribute made for a child outlives the child or its name; a child with a name that cannot be printed is rejected without effect.", "quantifier": "every history of links, unlinks and renames, every collection of names", "why_tests_cant": "all name collections and histories; tests use a few well-behaved names", "anchors": ["paramz/core/parameter_core.py:Parameterizable._add_parameter_name", "paramz/core/parameter_core.py:Parameterizable._remove_parameter_name", "paramz/parameterized.py:276"]}
{"id": "C67", "title": "checkgrad judges the analytic gradient at the current parameters", "statement": "The verdict of checkgrad depends only on the objective at both sides of the current optimizer vector, moved exactly at the free elements of the target, and on the transformed gradient at the current parameters; with nothing free in the target it is true, and in verbose mode it is true exactly when each single comparison is.", "quantifier": "every model, hierarchy, constraint layout, target and step", "why_tests_cant": "all models, layouts and targets; tests check a few models", "anchors": ["paramz/model.py:Model._checkgrad"]}
{"id": "C68", "title": "Constraints made through a concatenation apply to exactly its elements", "statement": "A constrain, fix, unfix or unconstrain call on a concatenation has the effect of the call on exactly the elements of its parameters, seen from every object of the hierarchy; constraints of all other elements stay.", "quantifier": "every hierarchy, constraint layout and concatenation", "why_tests_cant": "all hierarchies and layouts", "anchors": ["paramz/param.py:ParamConcatenation.constrain", "paramz/param.py:ParamConcatenation.constrain_fixed", "paramz/param.py:ParamConcatenation.unconstrain", "paramz/param.py:ParamConcatenation.unconstrain_fixed"]}
{"id": "C69", "title": "A concatenation holds exactly the matching parameters", "statement": "m[regexp] with several matches consists of exactly the Params that are, or are part of, the matching objects, each once; values() gives their values in order.", "quantifier": "every hierarchy and set of matching objects", "why_tests_cant": "overlapping matches; all hierarchies", "anchors": ["paramz/param.py:ParamConcatenation.__init__"]}
{"id": "C70", "title": "A copy is what the original was, and is new", "statement": "x.copy() gives an object without parent that has, child by child, the kinds, sizes, values, constraints and update switches of x, consists of new objects only, and leaves every object there was as it was; fixed elements of the copy are respected by its optimizer array.", "quantifier": "every object of every reachable hierarchy, at any depth", "why_tests_cant": "any shape of hierarchy, any mixture of constraints and histories before the copy", "anchors": ["paramz/core/pickleable.py:Pickleable.copy", "paramz/core/pickleable.py:Pickleable.__deepcopy__", "paramz/parameterized.py:Parameterized.copy", "paramz/param.py:Param.__deepcopy__"]}
{"id": "C71", "title": "Copy and original are independent", "statement": "After x.copy(), no later assignment, constraint, fix, optimizer array, update switch or randomisation of one of the two is seen in the other, and none runs parameters_changed in the other.", "quantifier": "every copy and every later history of calls on the one or the other", "why_tests_cant": "shared memory or shared index structures would show only after particular later histories", "anchors": ["paramz/core/pickleable.py:Pickleable.copy", "paramz/parameterized.py:Parameterized.__setstate__", "paramz/core/observable_array.py"]}
{"id": "C72", "title": "Hierarchies leave each other alone", "statement": "What is done to the objects of one hierarchy changes no value, constraint, link or update switch of another one and runs no parameters_changed in it.", "quantifier": "every reachable set of hierarchies and every history of calls that link and unlink nothing", "why_tests_cant": "all histories; aliasing of memory between hierarchies that once were one", "anchors": ["paramz/core/parameter_core.py", "paramz/core/constrainable.py", "paramz/core/updateable.py"]}
{"id": "C73", "title": "Flat names name the elements", "statement": "parameter_names_flat() lists one name for every element of the parameter array, in the order of the array: the path of the element's Param and, if it has several elements, the coordinates of the element; without the fixed elements the list is that of the optimizer array; no two elements have the same name.", "quantifier": "every hierarchy, shapes of the parameters, names and constraint layout", "why_tests_cant": "all shapes, depths and fix patterns; a misplaced name is invisible for small examples", "anchors": ["paramz/core/parameter_core.py:Indexable.parameter_names_flat", "paramz/core/nameable.py:Nameable.hierarchy_name"]}
{"id": "C74", "title": "Assigning to an attribute that names a child sets the child", "statement": "m.name = v, where name is the printing form of a child's name, gives every element of this child, the one m.name reads, the value v, changes no other value, keeps all constraints and runs the updates above; any other name changes no parameter.", "quantifier": "every hierarchy, set of names and value", "why_tests_cant": "all name collections and link orders", "anchors": ["paramz/parameterized.py:Parameterized.__setattr__"]}
{"id": "C75", "title": "Lookup by regular expression finds exactly the matching parts", "statement": "m[regexp] is the part below m whose dotted name relative to m is matched, or, if there are several, the concatenation of the Params below them; it changes nothing; if nothing is matched it is an AttributeError.", "quantifier": "every hierarchy, naming and regular expression, any object m of the hierarchy", "why_tests_cant": "all hierarchies, names and expressions", "anchors": ["paramz/parameterized.py:Parameterized.grep_param_names", "paramz/parameterized.py:Parameterized.__getitem__"]}
{"id": "C76", "title": "Assignment by regular expression sets exactly the matching parts", "statement": "m[regexp] = v gives every element of each matching part the value v, changes no other value and no constraint, and runs the updates of all objects above; without a match it has no effect but an AttributeError.", "quantifier": "every initialised hierarchy, naming, regular expression and value", "why_tests_cant": "overlapping matches; all hierarchies", "anchors": ["paramz/parameterized.py:Parameterized.__setitem__", "paramz/param.py:ParamConcatenation.__setitem__"]}
{"id": "C77", "title": "Optimisation leaves fixed parameters alone and constrained ones in their domain", "statement": "Whatever vectors an optimizer passes and however often parameters are randomised, fixed elements keep their values, no constraint changes, and every element under a constraint has, seen from every object, a value of the domain of its transformation; so it is after any history of calls in which assigned values respect the domains.", "quantifier": "all hierarchies, constraint layouts, transformations and histories of calls", "why_tests_cant": "all optimizer vectors and histories; a test sees only the vectors its optimizer happens to try", "anchors": ["paramz/core/parameter_core.py:OptimizationHandlable.optimizer_array", "paramz/core/parameter_core.py:OptimizationHandlable.randomize", "paramz/core/constrainable.py:Constrainable.constrain", "paramz/transformations.py"]}
{"id": "C78", "title": "An observer of an array is never out of date", "statement": "If the memory of an observable array is changed only by indexed assignment and in-place operators on it or on slices of it (of slices ...), made with updates on and without wrapping it again, then after any history every registered observer was called after the last change: what it saw in the array then is what the array holds.", "quantifier": "all histories of slicing, assigning, in-place operators, copying, registering, on any number of arrays", "why_tests_cant": "all aliasing patterns and histories; tests try single assignments", "anchors": ["paramz/core/observable_array.py:ObsAr.__setitem__", "paramz/core/observable_array.py:ObsAr.__array_finalize__", "paramz/core/observable_array.py:ObsAr.__iadd__", "paramz/core/observable.py:Observable.notify_observers"]}
{"id": "C79", "title": "Every change of an observed array is announced, however it is made", "statement": "Any change of the memory of an observable array with updates on is announced to its observers: through its values, through the array it was made of, after a += b, by methods like fill, through slices made while updates were off, and after wrapping it again; and with updates off none is.", "quantifier": "all ways of changing the memory of an array", "why_tests_cant": "needs the aliasing of all views considered together with the flags of each; tests assign to the array itself", "anchors": ["paramz/core/observable_array.py:ObsAr.values", "paramz/core/observable_array.py:ObsAr.__array_wrap__", "paramz/core/observable_array.py:ObsAr.__new__", "paramz/core/observable_array.py:ObsAr.__array_finalize__"]}
{"id": "C80", "title": "In-place changes change exactly what they name and are announced a known number of times", "statement": "a[sel] = v and a op= v change exactly the named elements, in every array that shares them, and call every observer once, in order, after the change; a[sel] op= v calls every observer exactly twice, the first time before the change if sel is an index array.", "quantifier": "all reachable arrays, selections and operators", "why_tests_cant": "all aliasing arrangements; exact count and moment of notification", "anchors": ["paramz/core/observable_array.py:ObsAr.__setitem__", "paramz/core/observable_array.py:ObsAr.__iadd__", "paramz/core/observable_array.py:ObsAr.__imul__"]}
{"id": "C81", "title": "Copies of arrays are independent", "statement": "a.copy() has the values of a and no observers, and whatever is done later with the copy and with arrays made from it changes no array that existed before and calls no observers of one; the same holds for the memory of a[index array], but that one calls the observers of a.", "quantifier": "all histories of calls on the copy and what is derived from it", "why_tests_cant": "universal over later histories", "anchors": ["paramz/core/observable_array.py:ObsAr.copy", "paramz/core/observable_array.py:ObsAr.__deepcopy__", "paramz/core/observable_array.py:ObsAr.__array_finalize__"]}
{"id": "C82", "title": "Views stay views", "statement": "A slice shows, through all later histories of any calls, the elements of the array it was taken from; a.values, the result of a op= v, and ObsAr(b) of a contiguous float array b show the whole array for ever; ObsAr(b) of any other array is a copy that shares nothing with b.", "quantifier": "all histories", "why_tests_cant": "universal over later histories and chains of views", "anchors": ["paramz/core/observable_array.py:ObsAr.values", "paramz/core/observable_array.py:ObsAr.__array_wrap__", "paramz/core/observable_array.py:ObsAr.__new__"]}
{"id": "C83", "title": "Cached methods behave like uncached ones", "statement": "A program whose methods are decorated with Cache_this, which may call each other, raise exceptions and take arguments by position, keyword or default, gives for every call what the undecorated methods give for the present contents of the arguments, whatever caches have been filled, switched, reset, copied or dropped before.", "quantifier": "all programs whose methods depend on the contents of their non-ignored arguments, all histories of calls, changes, new and dying objects, copies and switches on any number of objects", "why_tests_cant": "nested caches of many objects interact through the shared inputs; all histories", "anchors": ["paramz/caching.py:Cache_this.__call__", "paramz/caching.py:FunctionCache", "paramz/caching.py:Cacher.__call__"]}
{"id": "C84", "title": "Every object has a cache of its own for every method", "statement": "The results of one method for one object are kept by a cacher with the limit and the ignored and forcing arguments of the declaration, which behaves as described in C12-C17 whatever happens to other caches; a call leaves alone the caches of the same method of other objects, and those of methods it does not use.", "quantifier": "all programs and histories", "why_tests_cant": "all interleavings of calls on several objects and methods", "anchors": ["paramz/caching.py:Cache_this.__call__", "paramz/caching.py:FunctionCache"]}
{"id": "C85", "title": "The switch of an object governs all its caches", "statement": "o.cache.disable_caching() empties all caches of o and makes every later call of its methods execute, also of methods first called later, until enable_caching(); the other objects are not affected; copies and single cachers keep their settings.", "quantifier": "all programs and histories that use the switches of objects", "why_tests_cant": "all orders of first calls and switches", "anchors": ["paramz/caching.py:FunctionCache.disable_caching", "paramz/caching.py:FunctionCache.enable_caching", "paramz/caching.py:Cacher.__deepcopy__"]}
{"id": "C86", "title": "A repeated call of a cached method is not executed again", "statement": "A call executes its method at most once; when caching is on and a call has returned, making it again right away gives the same result and changes nothing: no method is executed, no cache or observer list changes.", "quantifier": "all programs, histories and calls with cacheable arguments", "why_tests_cant": "all cache states, including full and outdated ones", "anchors": ["paramz/caching.py:Cacher.__call__", "paramz/caching.py:Cache_this.__call__"]}
{"id": "C87", "title": "How arguments are written does not matter", "statement": "Two calls of a decorated method that bind the same arguments, by position, keyword or default, are the same call: same result, same cache entry, same effect. Arguments that do not fit the parameters are a TypeError without effect.", "quantifier": "all parameter lists, call forms and states", "why_tests_cant": "all combinations of positions, keywords and defaults", "anchors": ["paramz/caching.py:Cache_this.__call__"]}
{"id": "C88", "title": "force_kwargs forces the execution of a decorated method", "statement": "A call of a method decorated with Cache_this(force_kwargs=[name]) that gives the keyword argument name a value other than None executes the method.", "quantifier": "all programs and histories", "why_tests_cant": "the decorator turns keyword arguments into positional ones; only a repeated call with equal arguments shows it", "anchors": ["paramz/caching.py:Cache_this.__call__", "paramz/caching.py:Cacher.__call__"]}
{"id": "C89", "title": "A cacher of a bound method sees changes of its object", "statement": "Cacher(o.method) gives what o.method gives, also after o has changed.", "quantifier": "all programs and histories", "why_tests_cant": "needs the combination of a bound method, a change of its object and a repeated call", "anchors": ["paramz/caching.py:Cacher.__init__"]}
{"id": "C90", "title": "An element has one gradient, shared by all levels of the hierarchy", "statement": "m.gradient and p.gradient of a Param p of m show the same numbers. Storing gradients in any object, by x.gradient = v or through the array x.gradient, stores them for these elements at every level, changes no value and no other gradient.", "quantifier": "all hierarchies reached by building, linking, unlinking, copying and storing; any object of them", "why_tests_cant": "depends on the views kept by every object through all histories of restructuring", "anchors": ["paramz/core/parameter_core.py:Parameterizable.gradient", "paramz/param.py:Param.gradient", "paramz/core/parameter_core.py:Parameterizable._propagate_param_grad"]}
{"id": "C91", "title": "Linking, unlinking and copying keep the gradients", "statement": "After link_parameter and unlink_parameter the Params have the gradients they had, and after copy() every object that was there before has the gradients it had.", "quantifier": "all hierarchies, all links and all copies", "why_tests_cant": "gradients move between buffers of several levels", "anchors": ["paramz/parameterized.py:Parameterized._connect_parameters", "paramz/core/parameter_core.py:Parameterizable._propagate_param_grad"]}
{"id": "C92", "title": "The optimizer gets the stored gradients", "statement": "If every Param of a model has been given its gradient, in whatever order, the optimizer gets for each free element, in order, that gradient multiplied by the factor of its transformation at its value.", "quantifier": "all hierarchies, constraints, fixes, values and gradients", "why_tests_cant": "end-to-end over storing through views, constraints of any level and the mask", "anchors": ["paramz/model.py:Model._grads", "paramz/core/parameter_core.py:OptimizationHandlable._transform_gradients"]}
{"id": "C93", "title": "The gradient is in m.gradient at all times", "statement": "Whatever an optimizer has asked for, m.gradient holds the gradient of the objective with respect to the parameters of the model, and asking twice gives the same.", "quantifier": "all models with transformed parameters", "why_tests_cant": "the gradient is transformed in place; only reading it after the optimizer shows it", "anchors": ["paramz/model.py:Model.objective_function_gradients", "paramz/core/parameter_core.py:OptimizationHandlable._transform_gradients"]}
{"id": "C94", "title": "The gradient handed to the optimizer is the optimizer's", "statement": "A gradient vector an optimizer got from the model does not change when the model computes its next gradient.", "quantifier": "all models and all later calls", "why_tests_cant": "needs a result that is held over later evaluations", "anchors": ["paramz/model.py:Model._grads", "paramz/core/parameter_core.py:OptimizationHandlable._transform_gradients"]}
{"id": "C95", "title": "SCG on a model does what SCG does", "statement": "Optimizing a model with SCG gives the same point, log, count of evaluations and status as SCG run on the model's objective and gradient as plain functions.", "quantifier": "all models, constraints, objectives, starting points and iteration limits", "why_tests_cant": "the difference is which arrays are the same object over the whole run; a result that differs is still a decrease and passes tests", "anchors": ["paramz/optimization/scg.py:SCG", "paramz/model.py:Model._grads", "paramz/core/parameter_core.py:OptimizationHandlable.optimizer_array"]}
{"id": "C96", "title": "SCG on a model descends whatever is shared", "statement": "Whether or not arrays are shared with the model, SCG ends within its limit, its log starts at the objective of the start and never rises, the point returned has the last logged value, and the steps recorded are the steps taken.", "quantifier": "all models, objectives, starting points and iteration limits", "why_tests_cant": "unbounded runs over arbitrary objectives", "anchors": ["paramz/optimization/scg.py:SCG", "paramz/model.py:Model._objective_grads"]}
{"id": "C97", "title": "Optimizing leaves the model at the recorded optimum", "statement": "After optimize the objective of the model is the f_opt of the run recorded last; after optimize_restarts it is the least f_opt of the runs just made.", "quantifier": "all models, objectives, numbers of restarts and random starts", "why_tests_cant": "the recorded points may be arrays that later runs write into", "anchors": ["paramz/model.py:Model.optimize", "paramz/model.py:Model.optimize_restarts"]}
{"id": "C98", "title": "Arrays handed out are the user's", "statement": "An array got as optimizer_array, or as gradient from the model's gradient function, changes only when the user writes into it; writing into it does not change the model: optimizer_array reads as what it was last set to.", "quantifier": "all models and all later histories of reads, writes, evaluations and optimizations", "why_tests_cant": "needs arrays held over arbitrary later calls", "anchors": ["paramz/core/parameter_core.py:OptimizationHandlable.optimizer_array", "paramz/model.py:Model._grads"]}
{"id": "C99", "title": "Observers are called once per registration, in order", "statement": "A change calls every observer of the changed object and of the objects above it once per registration, and no other; by priority, before or after the object's own update as its priority says, and for a part before what it is part of. Observers do not change what a call does.", "quantifier": "all hierarchies, all sets of registered observers, all calls", "why_tests_cant": "depends on the interplay of user priorities with the registrations paramz makes, at every level", "anchors": ["paramz/core/observable.py:Observable.notify_observers", "paramz/core/parameter_core.py:Parameterizable._pass_through_notify_observers", "paramz/core/parameter_core.py:OptimizationHandlable._trigger_params_changed"]}
{"id": "C100", "title": "Whoever's values change is told", "statement": "If a call that sets values (of a Param, of the free elements, at random, by a constraint, of a Parameterized as a whole) changes a value of an object at any level, the observers of this object are called and its parameters_changed runs.", "quantifier": "all hierarchies, fixes, observers and calls", "why_tests_cant": "changed objects and notified objects are found by different traversals, which have to agree for every pattern of fixes", "anchors": ["paramz/core/parameter_core.py:OptimizationHandlable._trigger_params_changed", "paramz/parameterized.py:Parameterized.__setitem__"]}
{"id": "C101", "title": "Derived quantities stay current", "statement": "If parameters_changed recomputes what an object derives from its values, then after any sequence of such calls every object of the hierarchy has what belongs to its present values.", "quantifier": "all sequences of calls on all hierarchies", "why_tests_cant": "a stale cache at one level shows only for one order of calls", "anchors": ["paramz/core/parameter_core.py:OptimizationHandlable._trigger_params_changed", "paramz/core/observable.py:Observable.notify_observers"]}
{"id": "C102", "title": "The optimization display shows the current model", "statement": "At every step an observer of the model, such as the display of optimize(messages=True), reads what the model derived from the parameters just set.", "quantifier": "all runs of an optimizer, all models", "why_tests_cant": "a display one step behind shows plausible numbers", "anchors": ["paramz/optimization/verbose_optimization.py:VerboseOptimization.__init__", "paramz/core/observable.py:Observable.add_observer"]}
{"id": "C103", "title": "Registrations belong to their object", "statement": "Which observers an object has changes only by add_observer and remove_observer on it: not by linking, unlinking, copying or setting it, or by errors. A copy has none. add_observer puts the observer behind those of the same or a higher priority; remove_observer removes it.", "quantifier": "all hierarchies and calls", "why_tests_cant": "linking and unlinking edit the same list", "anchors": ["paramz/core/observable.py:Observable.add_observer", "paramz/core/observable.py:Observable.remove_observer", "paramz/parameterized.py:Parameterized.unlink_parameter", "paramz/core/pickleable.py:Pickleable.copy"]}
{"id": "C104", "title": "parameters_changed may set parameters", "statement": "A parameters_changed method may set parameters of the hierarchy: the call that led to it ends, what it set stays unless a method sets it again, and everything derived is up to date.", "quantifier": "all hierarchies, all methods, all states", "why_tests_cant": "non-termination shows as a crash only for some hierarchies; termination for all states needs an argument", "anchors": ["paramz/core/observable_array.py:ObsAr.__setitem__", "paramz/core/parameter_core.py:Parameterizable._parameters_changed_notification", "paramz/core/updateable.py:Updateable.update_model"]}
{"id": "C105", "title": "Observers do not dangle in memory", "statement": "Being registered does not keep an observer alive: when the program has dropped it, it can be freed and is not called any more.", "quantifier": "all programs that hold, drop, register, remove and notify", "why_tests_cant": "depends on which references of the whole program are left; tests keep their observers alive", "anchors": ["paramz/core/lists_and_dicts.py:ObserverList", "paramz/core/observable.py:Observable.add_observer"]}
{"id": "C106", "title": "A finished run records its outcome", "statement": "After a run the Optimizer object has the point found, the objective there, the number of evaluations and a status that says how the run ended, for every way a run of its routine can end, and it can be printed.", "quantifier": "all optimizers, all results and return codes of the routines", "why_tests_cant": "return codes for rare outcomes are not produced by test problems", "anchors": ["paramz/optimization/optimization.py:opt_tnc.opt", "paramz/optimization/optimization.py:opt_lbfgsb.opt", "paramz/optimization/optimization.py:opt_bfgs.opt", "paramz/optimization/optimization.py:opt_simplex.opt", "paramz/optimization/optimization.py:opt_SCG.opt", "paramz/optimization/optimization.py:Adam.opt", "paramz/optimization/optimization.py:Optimizer.__str__"]}
{"id": "C107", "title": "Options given to an optimizer have an effect or a warning", "statement": "max_iters limits every optimizer. Every other option given (max_f_eval, ftol, gtol, xtol, bfgs_factor) reaches the routine unchanged, or the user is told that it is ignored; what is not given is left to the routine.", "quantifier": "all optimizers and all combinations of options", "why_tests_cant": "a dropped tolerance or limit still gives a plausible optimum", "anchors": ["paramz/optimization/optimization.py:Optimizer.__init__", "paramz/optimization/optimization.py:opt_lbfgsb.opt", "paramz/optimization/optimization.py:opt_SCG.__init__", "paramz/optimization/optimization.py:RProp.opt"]}
{"id": "C108", "title": "Runs of the climin optimizers end at max_iters", "statement": "A run with adadelta, rprop or adam ends, with the first step whose number is at least max_iters.", "quantifier": "all limits", "why_tests_cant": "termination for all limits", "anchors": ["paramz/optimization/optimization.py:Opt_Adadelta.opt", "paramz/optimization/optimization.py:RProp.opt", "paramz/optimization/optimization.py:Adam.opt"]}
{"id": "C109", "title": "The runtime shown is the time elapsed", "statement": "The time string of the display, read as days, hours, minutes, seconds and hundredths, is the time elapsed cut off at its last digit, with every number in its range.", "quantifier": "all durations", "why_tests_cant": "the formats change at a minute, an hour and a day of real running time", "anchors": ["paramz/optimization/verbose_optimization.py:VerboseOptimization.print_out"]}
{"id": "C110", "title": "Messages leave no trace in the model", "statement": "optimize(messages=True) sets the same parameters as without messages, its display counts every point tried once, and afterwards, also when the run fails, every object has the observers it had before.", "quantifier": "all models, observers and runs, failing or not", "why_tests_cant": "needs the full registration lists after every kind of failure", "anchors": ["paramz/optimization/verbose_optimization.py:VerboseOptimization.__init__", "paramz/optimization/verbose_optimization.py:VerboseOptimization.__exit__", "paramz/model.py:Model.optimize"]}
{"id": "C111", "title": "What is loaded is what was saved", "statement": "paramz.load of what m.pickle(f) has written gives an object without parent that has, child by child, the kinds, sizes, values, constraints and update switches of m, consists of new objects only and leaves every object there was as it was; afterwards neither of the two is affected by what is done to the other; fixed elements of the loaded object are respected by its optimizer array.", "quantifier": "every root of every reachable hierarchy, any further attributes referring to parts of it, and every later history", "why_tests_cant": "all shapes, constraint layouts and orders of references between the objects; aliasing shows only after particular later histories", "anchors": ["paramz/core/pickleable.py:Pickleable.pickle", "paramz/core/pickleable.py:Pickleable.__getstate__", "paramz/core/pickleable.py:Pickleable.__setstate__", "paramz/parameterized.py:Parameterized.__setstate__", "paramz/core/observable_array.py:ObsAr.__setstate__", "paramz/__init__.py:load"]}
{"id": "C112", "title": "What can be saved can be loaded", "statement": "Every object of a hierarchy for which pickle() succeeds, with or without a parent and with any attributes that refer to objects of the hierarchy, can be loaded again.", "quantifier": "every object of every reachable hierarchy and all references between its objects", "why_tests_cant": "whether loading succeeds depends on the order in which the references are met", "anchors": ["paramz/core/pickleable.py:Pickleable.pickle", "paramz/core/pickleable.py:Pickleable.__getstate__", "paramz/parameterized.py:Parameterized.__setstate__", "paramz/__init__.py:load"]}
{"id": "C113", "title": "The example's gradient is the derivative of its objective", "statement": "For the regression model of paramz.examples, with any basis, degree, data, penalty and weights, the objective is the sum of squared differences between targets and predictions plus the penalty, and weights.gradient is its derivative in every weight.", "quantifier": "all data, shapes, bases, degrees, penalties and weights", "why_tests_cant": "gradients are checked numerically at random points only, with one shape of data", "anchors": ["paramz/examples/ridge_regression.py:RidgeRegression.parameters_changed", "paramz/examples/ridge_regression.py:RidgeRegression.predict", "paramz/examples/ridge_regression.py:Ridge.update_error", "paramz/examples/ridge_regression.py:Lasso.update_error"]}
{"id": "C114", "title": "The example's gradient vanishes exactly at the best weights", "statement": "The gradient of the regression model is zero at weights if and only if no other weights have a smaller objective; with ridge regression no others have the same.", "quantifier": "all data, bases, degrees, penalties and weights", "why_tests_cant": "minimality quantifies over all weights", "anchors": ["paramz/examples/ridge_regression.py:RidgeRegression.parameters_changed", "paramz/examples/ridge_regression.py:Ridge.update_error", "paramz/examples/ridge_regression.py:Lasso.update_error"]}
{"id": "C115", "title": "The example is up to date", "statement": "With updates on, objective and gradient of the regression model are those of the weights and data it has, after every sequence of assignments, optimizer arrays, fixes, triggers and switches of updates.", "quantifier": "all histories of calls", "why_tests_cant": "gradients are accumulated in place by two objects, so the order and number of their updates matters", "anchors": ["paramz/examples/ridge_regression.py:RidgeRegression.parameters_changed", "paramz/examples/ridge_regression.py:Regularizer.parameters_changed", "paramz/core/parameter_core.py:OptimizationHandlable._trigger_params_changed"]}
{"id": "C116", "title": "Calls on a part of a Param act on exactly its elements", "statement": "Constraining, fixing (also to a value), releasing and assigning through p[s] changes the constraints and values of the elements that s selects from p, wherever they appear in the hierarchy, and nothing else; positions outside p are refused; the objects above are updated once each, parts before wholes.", "quantifier": "all hierarchies and histories, all slices with positive step, all lists of positions, parts of parts", "why_tests_cant": "the set of slices, positions and hierarchies is infinite, and the part carries copies of the Param's place in the hierarchy", "anchors": ["paramz/param.py:Param.__getitem__", "paramz/param.py:Param._raveled_index", "paramz/param.py:Param.__array_finalize__", "paramz/core/parameter_core.py:OptimizationHandlable"]}
{"id": "C117", "title": "A part of a Param stays one", "statement": "A part q = p[s] reads the present values of its elements and acts on them, after any further calls on the hierarchy.", "quantifier": "all histories after the part was taken", "why_tests_cant": "what the part copied from the Param can be out of date after any later call", "anchors": ["paramz/param.py:Param.__getitem__", "paramz/param.py:Param.__array_finalize__"]}
{"id": "C118", "title": "A part is fixed when its elements are", "statement": "p[s].is_fixed holds if and only if all elements that s selects are fixed.", "quantifier": "all hierarchies, histories and parts", "why_tests_cant": "a test sees one pattern of fixed elements", "anchors": ["paramz/param.py:Param.is_fixed"]}
{"id": "C119", "title": "A single position and an empty selection are refused", "statement": "p[i] is a number without constraint calls; fixing or releasing an empty part is refused; neither changes anything.", "quantifier": "all hierarchies, positions and empty slices", "why_tests_cant": "emptiness of a slice depends on its bounds and the size", "anchors": ["paramz/param.py:Param.__getitem__", "paramz/param.py:Param._raveled_index"]}
{"id": "C120", "title": "Restarts in parallel end at the best run", "statement": "With parallel=True the model ends at the point of the best completed run, failing runs are skipped when robust is set, and an interrupted call leaves the model as it was.", "quantifier": "all outcomes of the runs, all orders in which they finish, all starting points", "why_tests_cant": "the runs, their failures and their order are not reproducible, and the branch is excluded from test coverage", "anchors": ["paramz/model.py:Model.optimize_restarts", "paramz/model.py:opt_wrapper"]}
{"id": "C121", "title": "In-place arithmetic on matched parameters changes exactly them", "statement": "After c += v (or any other in-place operator) on the parameters matched by a regular expression, and after m[regexp] += v, every element of the matched parameters is its old value combined with its operand, nothing else changed, the objects above are updated, and c can be used again. Comparisons answer position by position.", "quantifier": "all hierarchies, all sets of matched parameters, all operators, all operands", "why_tests_cant": "the effect goes through concatenated copies, masks and views whose combinations are unbounded; these operators are excluded from test coverage", "anchors": ["paramz/param.py:ParamConcatenation.__iadd__", "paramz/core/observable_array.py:ObsAr.__iadd__", "paramz/parameterized.py:Parameterized.__setitem__"]}
{"id": "C122", "title": "A printed Param shows each element with its own index, value and constraints", "statement": "print(p), for a Param, for a part p[s] or for several Params found by name, shows one line for each element, and the index, the value and the constraints on a line belong to the same element.", "quantifier": "all hierarchies reachable by calls, all shapes, all parts, all constraints, all ways of writing numbers", "why_tests_cant": "the pairing of three separately computed columns depends on shape, selection and the offsets of the Param in its hierarchy, which are unbounded; tests compare a few fixed texts", "anchors": ["paramz/param.py:Param.__str__", "paramz/param.py:Param._indices", "paramz/param.py:ParamConcatenation.__str__"]}
{"id": "C123", "title": "The printed summary lists every Param below, once and in order, with its constraints", "statement": "print(m) shows one line for each Param below m in the order of the values, with its name as seen from m, its shape (or its value if it is a single number), and the constraints that its elements carry, in braces when only some elements carry them. It works for every hierarchy.", "quantifier": "all hierarchies reachable by calls, all shapes, all constraints", "why_tests_cant": "three lists are built by three separate recursions over the hierarchy and combined by position; the depth and the pattern of constraints are unbounded", "anchors": ["paramz/parameterized.py:Parameterized.__str__", "paramz/parameterized.py:Parameterized.get_property_string", "paramz/core/parameter_core.py:Parameterizable.parameter_names"]}
{"id": "C124", "title": "Columns of printed tables are aligned", "statement": "All lines of what print shows for a Param or a Parameterized have the same length, and the labels of a Model end at the same column.", "quantifier": "all hierarchies, names and values", "why_tests_cant": "widths are computed from the widest of unboundedly many cells, for names and numbers of any length", "anchors": ["paramz/param.py:Param._format_spec", "paramz/param.py:Param._max_len_values", "paramz/parameterized.py:Parameterized._format_spec", "paramz/model.py:Model.__str__"]}
{"id": "C125", "title": "The head of a printed Model counts all and free elements", "statement": "print(m) for a Model shows its name, its objective, the number of its elements, the number of its elements that are free for the optimizer, whether updates are on, and then the summary.", "quantifier": "all hierarchies reachable by calls, all fixed elements, all objectives", "why_tests_cant": "the number of free elements depends on the history of fixing at every level of the hierarchy", "anchors": ["paramz/model.py:Model.__str__"]}
{"id": "C126", "title": "SCG takes exactly the steps of the scaled conjugate gradient method", "statement": "Every iteration of SCG follows from the ones before: it goes along the conjugate direction, or down the gradient where that does not descend; the step divides by the measured curvature plus the scale, and where that is not positive the scale is raised first; an accepted step turns the direction by the Polak-Ribiere formula, as many accepted steps as there are parameters make a restart with scale 1; the scale is multiplied by 4 (up to 1e15) when the objective fell by less than a quarter of what was predicted, divided by 4 (down to 1e-15) when by more than three quarters; a rejected step changes the scale only.", "quantifier": "for all objectives, gradients, starting points with nonzero gradient, tolerances and numbers of iterations", "why_tests_cant": "Tests run the optimizer on a few smooth problems and look at the result; a wrong constant or a forgotten restart still converges there.", "anchors": ["paramz/optimization/scg.py:44-174"]}
{"id": "C127", "title": "A child linked at the end gets the first free numbered name", "statement": "Linking a parameter at the end of an object whose children have different names leaves its name alone if no child has it; otherwise the parameter is called name_1, name_2, ... (counting on from its own number if it ends in one), and it is the first of these that no other child has.", "quantifier": "for all names, all numbers of children and all numbers in their names", "why_tests_cant": "The renaming runs through mutually recursive calls for all children at every step; tests try two or three children with short names.", "anchors": ["paramz/core/parameter_core.py:302", "paramz/core/parameter_core.py:444-492", "paramz/parameterized.py:228-277"]}
{"id": "C128", "title": "Statements on observable arrays that make no sense are refused and change nothing", "statement": "Slicing, picking, assigning to and operating in place on elements of an array raises IndexError exactly if some index lies outside it, ValueError exactly if the indices are fine but there is not one value for each; attributes of observable arrays raise AttributeError on plain arrays; nothing else raises. A statement that raises changes no array, registers nothing and calls no observer.", "quantifier": "for all histories of arrays, views and observers, all selections and values", "why_tests_cant": "An operator on a selection reads, computes and writes back through three overridden methods with notifications in between; tests do not look at the observers after an error.", "anchors": ["paramz/core/observable_array.py:56-119", "paramz/core/observable_array.py:127-201"]}
{"id": "C129", "title": "Constraints asked for and given up by name, across copies, pickles and processes", "statement": "constrain_positive, constrain_negative, constrain_bounded(lower, upper) bind exactly the elements of the parameter, to exactly that; unconstrain_positive, unconstrain_negative, unconstrain_bounded(lower, upper) free exactly those elements of the parameter that are bound so, and unconstrain() all its elements; other elements, other models and pickles are as before. Bounds in the wrong order are refused and nothing changes. A copy and a loaded pickle are constrained like the original at that time. This holds whatever models were made, copied, pickled, loaded and deleted before, in this and in earlier processes, except that unconstrain_bounded on a model loaded beside a model with the same bounds may remove too little.", "quantifier": "for all programs of constraining, unconstraining, copying, pickling, loading, deleting and starting new processes; all parameters, all bounds", "why_tests_cant": "unconstrain_bounded makes a new transformation object and relies on being handed the very object that constrain_bounded got, through a list of weak references; whether that is so depends on what was copied, loaded and deleted before. Tests constrain and unconstrain one model in one process.", "anchors": ["paramz/core/constrainable.py:133-209", "paramz/transformations.py:184-203", "paramz/core/index_operations.py:183-185", "paramz/core/indexable.py:252-266"]}
{"id": "C130", "title": "Removing an observer removes its registrations and no others, whatever the observer is", "statement": "remove_observer(o) and remove_observer(o, callback) remove exactly the registrations of o (with that callback), without an error; change_priority moves exactly that registration. This is so if o can be compared with the observers at its priorities and equals only itself. In general the call raises exactly if some observer at one of these priorities cannot be compared with o, and it removes nothing but registrations with the priority, the callback and an equal of o; so arrays and parameters as observers cannot be removed.", "quantifier": "for all states of an observable, all observers, callbacks and priorities, all comparisons of observers", "why_tests_cant": "The registrations to remove are found by identity but then deleted by equality; the tests use observers without an equality of their own.", "anchors": ["paramz/core/observable.py:56-73", "paramz/core/observable.py:98-101", "paramz/core/lists_and_dicts.py:78-86"]}
{"id": "C131", "title": "Param(name, array) makes a new parameter and leaves everything else as it is", "statement": "Param(name, a) returns a new parameter with the values of a, its own name, no constraints and no parent, and changes no other array, parameter or model; it shares memory with a exactly if the elements of a lie side by side in order. Afterwards a linked parameter and its model stay in step: both have the same constraints, and every assignment is told to the model exactly once. This holds for plain arrays; an ObsAr is returned itself, without its observers and not as a parameter; a Param is returned itself, renamed and cut off from the model it is linked to.", "quantifier": "for all programs that make arrays, views, observable arrays and parameters, link, constrain and assign; all values and sizes", "why_tests_cant": "Whether an array object is taken over, copied or returned depends on its class and layout and on its whole history; the tests make parameters from fresh plain arrays only.", "anchors": ["paramz/param.py:85-98", "paramz/core/observable_array.py:56-67", "paramz/core/observable.py:40-44", "paramz/core/constrainable.py:36-43"]}
{"id": "C132", "title": "What was said of an element stays with it when parameters are linked and unlinked, for every index operation", "statement": "Objects can have index operations beside the constraints (add_index_operation, as priors in GPy). For programs that link only objects with index operations of the same names: linking, moving and unlinking parameters leaves, for every parameter, every index operation and every element, the properties as they were; parameter and parent agree on them at all times; the parent says nothing of elements it does not have; adding a property to an element of a parameter adds it there and nowhere else.", "quantifier": "for all programs that make parameters, add and remove index operations, add properties, link, move and unlink; all sizes, names and properties", "why_tests_cant": "The positions that the parent keeps are shifted at every change of the hierarchy, for every index operation separately; the tests have the constraints only.", "anchors": ["paramz/core/indexable.py:81-125", "paramz/core/indexable.py:220-239", "paramz/parameterized.py:138-226"]}
{"id": "C133", "title": "Linking works or leaves everything as it was", "statement": "link_parameter either links the parameter or raises and changes nothing, whatever index operations both sides have. It succeeds exactly if the names of the index operations are the same; otherwise it is a KeyError, after which the parent can hold properties of elements it does not have, or the parameter is linked in spite of the error and has lost an index operation.", "quantifier": "for all reachable hierarchies and all pairs of a parameter without parent and a parent", "why_tests_cant": "Partial effects of failing calls on every combination of names; the tests never link objects with different index operations.", "anchors": ["paramz/parameterized.py:149-183", "paramz/core/indexable.py:233-236"]}
{"id": "C134", "title": "An index operation added to one object changes no other object", "statement": "o.add_index_operation(name, ops) affects o only: attributes and index operations of other objects read as before. This is so for all names but the new one; an attribute of that name cannot be read any more in any object without such an index operation, also after the index operation was removed again.", "quantifier": "for all reachable states, objects, names and attributes", "why_tests_cant": "The name becomes a property of a class that all objects share; a test looks at the object that was changed.", "anchors": ["paramz/core/indexable.py:92-108"]}
{"id": "C135", "title": "disable_caching reaches all of a hierarchy", "statement": "o.disable_caching() empties and switches off every Cacher of a method of an object of the hierarchy of o, also Cachers made later, until something is switched on again, and no other; enable_caching() switches them on again. It reaches the Cacher made last for each method; after a copy was made, that is the copy's.", "quantifier": "for all programs of making objects and Cachers, calls, switches, copies", "why_tests_cant": "The Cachers are found through dictionaries of the objects that later Cachers, and copies of Cachers, overwrite; tests use one Cacher and no copy.", "anchors": ["paramz/core/parameter_core.py:416-424", "paramz/caching.py:63-84", "paramz/caching.py:225-226", "paramz/caching.py:241-256"]}
{"id": "C136", "title": "A copy computes with its own data through its Cachers", "statement": "If an object has a Cacher of one of its methods as an attribute (as the basis of the example has), the copy of the object has a Cacher of the copy's method: it computes with the data of the copy and is governed by the copy's switch.", "quantifier": "for all reachable states, objects, attributes and arguments", "why_tests_cant": "The copy agrees with the original until one of them is changed; tests compare them right after copying.", "anchors": ["paramz/caching.py:225-226", "paramz/core/pickleable.py:73-128", "paramz/examples/ridge_regression.py:118"]}
{"id": "C137", "title": "Every object of a hierarchy can be pickled", "statement": "o.pickle(f) works for every o. It works exactly if no object of the whole hierarchy, above, below or beside o, has a Cacher as an attribute; otherwise it raises PickleError. Nothing changes in either case.", "quantifier": "for all reachable states and objects", "why_tests_cant": "Whether an object can be pickled depends on all objects that it is connected to.", "anchors": ["paramz/caching.py:228-229", "paramz/core/pickleable.py:46-68", "paramz/core/pickleable.py:104-116"]}
{"id": "C138", "title": "save writes all values, and they can be loaded again", "statement": "m.save(file) writes the values of every Param under its hierarchical name and all values as 'param_array'; assigning these to a hierarchy of the same form gives the saved values. It works exactly if the hierarchical names, with underscores for dots, are different from each other and from 'param_array'; otherwise it raises TypeError and the former content of the file is lost.", "quantifier": "for all hierarchies, names and values", "why_tests_cant": "Whether names collide depends on the names on all levels; there are no tests of save at all.", "anchors": ["paramz/core/parameter_core.py:540-579", "paramz/core/parameter_core.py:174-198"]}
{"id": "C139", "title": "unfixed_param_array has the values of the free elements", "statement": "x.unfixed_param_array has the current values of the elements of x that are not fixed, in order. If nothing of x is fixed, it is the memory of the parameters: writing to it changes them (without an update); with a fixed element it is a copy and writing to it changes nothing.", "quantifier": "for all reachable hierarchies, objects in them, layouts of fixed elements, positions and values", "why_tests_cant": "Whether it is a view or a copy depends on whether one element is fixed; tests read it only, on two hierarchies.", "anchors": ["paramz/core/parameter_core.py:352-366"]}
{"id": "C140", "title": "optimizer_array of a part follows what is fixed", "statement": "For an object below the top of a hierarchy optimizer_array has exactly the untransformed values of its free elements, whatever was fixed since it was last read, and setting it to what was read changes nothing.", "quantifier": "for all reachable hierarchies and objects below the top", "why_tests_cant": "The mask is kept by each object from its first reading; it takes a reading before a fix and one after it.", "anchors": ["paramz/core/parameter_core.py:80-93", "paramz/core/constrainable.py:85-104", "paramz/param.py:184-185"]}
{"id": "C141", "title": "A notebook shows what print shows", "statement": "The HTML of a Parameterized has one row for each Param below it, in their order, with the name that the printed summary gives it, its value or shape and its constraints; that of a Param has one row for each element with its index, its value and exactly its constraints; that of a Model begins with its name, objective, number of elements, number of free elements and whether updates are on.", "quantifier": "for all reachable hierarchies, names, shapes, values and constraints", "why_tests_cant": "Tests call _repr_html_ on one model, if at all, and do not compare it with what is printed.", "anchors": ["paramz/param.py:275-311", "paramz/parameterized.py:382-412", "paramz/model.py:410-427"]}
{"id": "C142", "title": "The HTML is well-formed", "statement": "In the HTML of a Param, a Parameterized or a Model every element is closed, in the reverse order, and the texts of names, values and constraints add no markup.", "quantifier": "for all reachable hierarchies and all texts of constraints", "why_tests_cant": "Browsers repair what is missing, and the texts of the constraints that come with the library have no markup characters.", "anchors": ["paramz/param.py:275-311", "paramz/parameterized.py:382-412", "paramz/model.py:410-427"]}
