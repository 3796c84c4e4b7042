# Formal model of paramz: design

Source: `/repo/paramz` (Python, read as text only). Prover: Coq 8.16.1, standard library only.

## Trusted base

* Coq's kernel (`coqc`; the compiled files also pass `coqchk`). No kernel check is switched off, no axiom is added,
  nothing is admitted.
* The axioms of Coq's standard library listed under "Axioms per theorem" at the end: none for everything discrete;
  those of `Reals` (and classical logic) for `Transform*` and `Scg*`.
* The translation from Python to Gallina, made by hand. Every definition of a model cites the file and lines it stands
  for, and says what is simplified.
* The semantics of the NumPy and Python built-ins the code uses (`np.union1d`, `np.setdiff1d(.., assume_unique=True)`,
  `np.intersect1d(.., assume_unique=True)`, boolean masks, `flat[mask] = v` with its recycling, `.data =` re-pointing,
  `np.ravel_multi_index`, `np.ix_`, `dict`, `deque`, `sorted`, `re`, `copy.deepcopy`, weak references), modelled from
  their documented behaviour; see the header of each model file.

## Layout

For each component `X` there are in `rocq/theories/`:

* `XModel.v`: the code, function by function, as total computable Gallina; no proofs.
* `XSpec.v`: the small independent vocabulary in which properties are stated (if needed).
* `XProofs.v`, or several files named after what they prove: lemmas.
* `XEx.v`: concrete cases used as examples and as witnesses of refutations (if needed).
* `XProps.v`: only property theorems, each closed by `exact lemma`, followed by `Print Assumptions` and by an `Example`
  showing that a concrete case meets its hypotheses.

Exceptions are values. A Python loop or recursion without an evident bound is a fuelled function whose theorems say that
the fuel suffices (or, in a refutation, that no fuel does).

Theorem names: `Cnn_...` for property `Cnn`; suffix `_partial` when only part of the statement is proved (the comment
says what is missing); suffix `_refuted` when the code violates the property and a witness is exhibited.

## The hierarchy model (`Pz*`)

One model carries all properties of the parameter hierarchy, and `Check*`, `Concat*`, `Copy*`, `Dom*`, `Flat*`, `Gm*` and `Hk*` extend it. Its state has
five parts: the objects and their links (`struct`), the index-operations objects holding the constraints, the cached fix
masks, the memory (arrays are buffer, offset, length over a store in which a new buffer has arbitrary content) and the
notification state with the trace of all `parameters_changed` calls. `PzSpec.call` lists the calls a user can make
(construct, link, unlink, constrain, unconstrain, fix, unfix, assign, read and set the optimizer array, switch updates,
trigger, randomize, initialize, copy); `legal` says when they are in the domain of the theorems; `reach` is the set of
states of all histories. `Inv` (PzInv.v) is the invariant, kept by every legal call (PzHist.v). `careful` histories are
those that do not refill an emptied object, after which Params can share memory (C35_apart_refuted).

## Per property: what is modelled and how it is proved

`proved`: the full statement. `partial`: part of it, the rest refuted or named as missing. The theorems are in the
`*Props.v` file of the component.

| property | component | model and proof | result |
|---|---|---|---|
| C01 Index sets stay sorted and duplicate-free | IndexOps | index lists in an insertion-ordered dict, views as chains of windows over one root dict; refinement to the relation "index i carries property p"; invariant over all operation sequences | proved. All histories of legal calls on an object or nested views. |
| C02 add and remove have exact set semantics | IndexOps | index lists in an insertion-ordered dict, views as chains of windows over one root dict; refinement to the relation "index i carries property p"; exact effect of each operation | partial. Effects exact for all inputs; the value returned by remove is exact only for index lists without repeats (refuted with repeats: intersect1d(assume_unique=True)). |
| C03 Block insertion and deletion renumber exactly | IndexOps | index lists in an insertion-ordered dict, views as chains of windows over one root dict; refinement to the relation "index i carries property p"; renumbering as a function on indices | proved.  |
| C04 A view is an exact window | IndexOps | index lists in an insertion-ordered dict, views as chains of windows over one root dict; refinement to the relation "index i carries property p"; a view of any depth reads and writes its window | proved.  |
| C05 Clearing a view empties the window and only the window | IndexOps | index lists in an insertion-ordered dict, views as chains of windows over one root dict; refinement to the relation "index i carries property p" | proved.  |
| C06 properties_for and properties_dict_for agree with the stored sets | IndexOps | index lists in an insertion-ordered dict, views as chains of windows over one root dict; refinement to the relation "index i carries property p" | proved.  |
| C07 Looking up a property is observably read-only | IndexOps | a lookup may insert a key; later histories agree up to empty entries | proved. Lookups and item sets agree after any later history; only the order of items() may differ. |
| C08 Observers are called by descending priority, ties in registration order | Observers | list of (priority, observer, callback) with the code's insertion loop; list objects have identity; invariant: sorted, stable | proved.  |
| C09 A notification reaches exactly the observers above the threshold | Observers | list of (priority, observer, callback) with the code's insertion loop; list objects have identity | proved.  |
| C10 Removing an observer removes exactly its registrations | Observers | list of (priority, observer, callback) with the code's insertion loop; list objects have identity | proved.  |
| C11 A notification round works on a snapshot | Observers | list of (priority, observer, callback) with the code's insertion loop; list objects have identity; callbacks are arbitrary programs that add, remove and notify | proved.  |
| C12 A cacher holds at most limit results | Caching | cacher state with a heap of observables, their addresses and registrations; all histories of calls, changes, deaths, failures, resets | proved.  |
| C13 Caching is transparent | Caching | cacher state with a heap of observables, their addresses and registrations; all histories of calls, changes, deaths, failures, resets; what a call returns is what the operation returns | proved. Histories with object creation, death and address reuse, changes, failures, reset, disable, enable. |
| C14 A retained unchanged result is not recomputed | Caching | cacher state with a heap of observables, their addresses and registrations; all histories of calls, changes, deaths, failures, resets | proved.  |
| C15 Different argument objects never share a cache entry | Caching | the identifier as a function of the argument objects | proved.  |
| C16 The cacher observes exactly the retained inputs | Caching | cacher state with a heap of observables, their addresses and registrations; all histories of calls, changes, deaths, failures, resets; registrations counted | proved.  |
| C17 A failing operation leaves an empty, working cache | Caching | cacher state with a heap of observables, their addresses and registrations; all histories of calls, changes, deaths, failures, resets | proved.  |
| C18 Keyword arguments are keyed correctly | Caching | sorting of keyword arguments; refutation for their names | partial. Order does not matter; keyword names are not part of the identifier, so f(a=o) and f(b=o) share an entry. |
| C19 Changing an input through a slice of it invalidates the cache | Caching | slices share the observer list but have an id of their own; refutation | partial. False of the code: the notification carries the slice, whose id is unknown to the cacher. |
| C20 Nested or concurrent calls keep the cache consistent | Caching | call split into its start and end; refutation | partial. False of the code: an overlapping call can leave an entry outside the eviction order. |
| C21 Transformations map every real into the constraint's domain | Transform | real-valued functions with the code's branches and clips; log, sqrt and division in an extended type with nan and inf | proved. Over the reals (no rounding). |
| C22 finv undoes f | Transform | real-valued functions with the code's branches and clips; log, sqrt and division in an extended type with nan and inf; one theorem for each class | partial. Proved for every class except NegativeExponent, for which it is false: finv(f(x)) = -x. |
| C23 f undoes finv on the domain | Transform | real-valued functions with the code's branches and clips; log, sqrt and division in an extended type with nan and inf; one theorem for each class | partial. Proved for every class except NegativeExponent (f(finv(y)) = 1/y); false for the boundary value 0 that initialize accepts. |
| C24 gradfactor is the chain rule | Transform | real-valued functions with the code's branches and clips; log, sqrt and division in an extended type with nan and inf; derivable_pt_lim | partial. Proved on the working range of every class except NegativeExponent (wrong sign). |
| C25 initialize makes values admissible and leaves admissible values alone | Transform | real-valued functions with the code's branches and clips; log, sqrt and division in an extended type with nan and inf | proved.  |
| C26 log_jacobian is the log of the derivative and log_jacobian_grad its derivative | Transform | real-valued functions with the code's branches and clips; log, sqrt and division in an extended type with nan and inf; derivable_pt_lim | partial. Proved for Logexp and Exponent; false for NegativeExponent (nan), the classes with the default 0, and the gradient of Logexp above 36. |
| C27 Equal constraints are the same object | Inst | instance tables with weak references, histories of constructions, copies and deaths | partial. Proved for classes without bounds over all histories; for Logistic without copies, inexact bounds, subclasses or kept failures, all of which are refuted. |
| C28 Sizes add up | Pz | the hierarchy model; sizes in the invariant | proved. All histories of legal calls (PzSpec.legal). |
| C29 Linking and unlinking carry constraints along | Pz | the hierarchy model; constraints before and after each link and unlink | proved.  |
| C30 A constraint set anywhere is seen everywhere | Pz | the hierarchy model; effect at every object of the hierarchy | proved.  |
| C31 Illegal links are rejected without effect | Pz | the hierarchy model; refused calls change nothing; refutations for cycles | partial. Children and objects of the same hierarchy are refused; linking an object below itself is not and ends in endless recursion with a cyclic hierarchy. |
| C32 At most one transformation per element | Pz | the hierarchy model; invariant over all histories | proved.  |
| C33 Fixing is reversible | Pz | the hierarchy model; composition of two calls | partial. Elements fixed before fix() are free after unfix(). |
| C34 The set of free elements matches the fix constraints | Pz | the hierarchy model; the mask is the complement of the fixed elements | partial. Holds at the top of a hierarchy; the getter of an object below hands out fixed elements. |
| C35 One copy of the parameters in memory | Pz | the hierarchy model; arrays below an object are windows of its array | partial. Sharing along the hierarchy proved; that other parameters are not written too holds for histories that do not refill an emptied node, and is false in general. |
| C36 Linking and unlinking preserve parameter values | Pz | the hierarchy model; values before and after, fresh memory arbitrary | partial. Proved up to the depth the code handles; false below it, whatever junk fresh memory contains. |
| C37 The optimizer array round-trips | Pz | the hierarchy model; transformations are arbitrary inverse pairs | partial. Set-then-get proved at the top; get-then-set needs an up-to-date copy and is false without. |
| C38 Setting the optimizer array respects fixes and constraints | Pz | the hierarchy model; exact effect | proved.  |
| C39 The optimizer array is never stale | Pz | the hierarchy model; state of the cached copy | partial. False after changes with updates off and after unconstrain. |
| C40 Gradients handed to the optimizer are aligned and transformed | Pz | the hierarchy model; gradient vector aligned with the optimizer array | proved. At the top of a hierarchy, as the optimizer uses it. |
| C41 Transformed indices point at the right optimizer entries | Pz | the hierarchy model; counting of free elements | proved.  |
| C42 A changed parameter updates each ancestor exactly once, bottom-up | Pz | the hierarchy model; trace of parameters_changed | proved.  |
| C43 An update of an object runs children first, each once | Pz | the hierarchy model; trace of parameters_changed, post-order | proved. Objects all of whose elements are fixed, and what is only reachable through them, are left out. |
| C44 Switching updates off silences the hierarchy and switching on catches up | Pz | the hierarchy model; silence over histories | partial. Proved for histories of value, constraint and update calls; an object linked in while updates are off is not silenced. |
| C45 traverse visits every object once, parents first | Pz | the hierarchy model; visitors that may raise, visited flags | proved.  |
| C46 A failed operation leaves searching intact | Pz | the hierarchy model; refutation | partial. False of the code: marks of the search stay set after a refused link. |
| C47 Printable names are identifiers | Names | strings as code points, the replacement chain, the regular expression; the renaming recursion over a hierarchy of named objects | partial. Everything but one case: a name ending in a newline is let through. |
| C48 Sibling names are unique | Names | strings as code points, the replacement chain, the regular expression; the renaming recursion over a hierarchy of named objects; termination by counting names | partial. Proved for calls on an object that nothing is above; linking into a part of a larger object leaves equal names, and a child without a conflict can be renamed when the new name of another is its own. |
| C49 Isolated evaluation failures are tolerated, persistent ones are raised | Run | failure counter automaton, restarts with optimizer objects that have identity, name lookup | partial. Evaluations that need gradients are tolerated only when the gradients can be had after the failure; otherwise the first failure raises. |
| C50 optimize_restarts ends at the best run | Run | failure counter automaton, restarts with optimizer objects that have identity, name lookup; runs have arbitrary outcomes | partial. Proved when each run has its own Optimizer object and completed runs report numbers; nan, a shared Optimizer object, missing objectives and verbose output with nothing to optimize are refuted. |
| C51 get_optimizer resolves names predictably | Run | failure counter automaton, restarts with optimizer objects that have identity, name lookup | proved. The documented names sgd and lbfgs do not name the optimizers documented. |
| C52 SCG never increases the objective and returns what it logged | Scg | the loop of SCG over arbitrary f and gradf on real vectors; division by zero stops the model; invariant of the loop | proved. Over the reals; gradf returns vectors of the right size, non-zero initial gradient, gtol >= 0. |
| C53 SCG terminates within its budget | Scg | the loop of SCG over arbitrary f and gradf on real vectors; division by zero stops the model | proved. Same hypotheses as C52. |
| C54 SCG steps are well defined | Scg | the loop of SCG over arbitrary f and gradf on real vectors; division by zero stops the model | partial. Everything but the upper bound of the scale, which lines 105-107 do not keep; a zero initial gradient divides by zero. |
| C55 Assigning through a concatenation sets exactly the selected elements | Concat | concatenation on top of the hierarchy model; one-shot iterators, masks, flat assignment | partial. Other elements are never touched; a selected element gets its value when all elements of its parameter before it are selected too, otherwise another one, as proved exactly. |
| C56 Every assignment through a concatenation updates the model | Concat | concatenation on top of the hierarchy model; one-shot iterators, masks, flat assignment | partial. Proved for constraints and fixes and for the first assignment; a second assignment through the same object runs no update. |
| C57 Indexing a concatenation returns the selected values | Concat | concatenation on top of the hierarchy model; one-shot iterators, masks, flat assignment | partial. Proved for values() and for selections with a nonzero value in each parameter concerned, in increasing order; other cases refuted. |
| C58 Flat indices of a parameter enumerate its elements in memory order | Ravel | shapes, strides and index items; positions as mixed-radix numbers | partial. Proved for whole parameters and for all indices in which integers and integer arrays are side by side; separated ones give wrong positions, even outside the parameter. |
| C59 checkgrad leaves parameter values and gradients as they were | Check | checkgrad on the hierarchy model with arbitrary objective and gradient | partial. Values are kept when the optimizer array is up to date; the gradient is left transformed in place without verbose, or with updates off. |
| C60 randomize leaves fixed elements and the update switch alone | Pz | the hierarchy model; random numbers arbitrary | partial. The switch of the object itself is kept; the others of its hierarchy get the same setting. |
| C61 Wrapping an observable array again keeps its observers | Observers | ObsAr.__new__ and __init__ on an existing array; refutation | partial. False of the code: ObsAr.__new__ re-runs __init__, which replaces the observer list. |
| C62 Any integer limit gives a working, bounded cacher | Caching | limit is any integer; refutations at 0 and below | partial. False of the code for limit 0 and negative limits; C12/C13 prove it for positive limits. |
| C63 Changes made while updates are off are seen once updates are on again | Caching | refutation | partial. False of the code. |
| C64 SCG stops at its evaluation limit | Scg | the loop of SCG over arbitrary f and gradf on real vectors; division by zero stops the model; refutation | partial. False of the code: max_f_eval is never read. |
| C65 An optimizer vector of the wrong length is rejected | Pz | the hierarchy model; recycling of flat assignment | partial. False of the code: assignment to .flat recycles or cuts the vector; its effect is proved. |
| C66 Children are attributes | Names | strings as code points, the replacement chain, the regular expression; the renaming recursion over a hierarchy of named objects | partial. Attributes made for children are always right; a child is missing when its printing form is shared or taken, or when linked into a part of a larger object. |
| C67 checkgrad judges the analytic gradient at the current parameters | Check | checkgrad on the hierarchy model with arbitrary objective and gradient | proved. With updates on. |
| C68 Constraints made through a concatenation apply to exactly its elements | Concat | concatenation on top of the hierarchy model; one-shot iterators, masks, flat assignment | proved.  |
| C69 A concatenation holds exactly the matching parameters | Concat | concatenation on top of the hierarchy model; one-shot iterators, masks, flat assignment | proved.  |
| C70 A copy is what the original was, and is new | Copy | deep copy on top of the hierarchy model, one of its calls; the copy related to the original path by path | partial. Proved for all objects that have an array, except Params with fixed elements: their copies do not respect the fix, which is refuted. |
| C71 Copy and original are independent | Copy | deep copy on top of the hierarchy model, one of its calls; all later histories without links | proved. For calls that link and unlink nothing; the state before the copy is reached by careful histories (see C35 on when Params share memory). |
| C72 Hierarchies leave each other alone | Copy | the hierarchy model; all histories without links elsewhere | proved. For calls that link and unlink nothing, after careful histories. |
| C73 Flat names name the elements | Flat | names and shapes given to the objects of the hierarchy model, a regular expression as a predicate; names tied to coordinates and offsets | partial. Proved without empty Params, and without the fixed elements for the top of a hierarchy; distinct when siblings differ in printing form. The other cases are refuted. |
| C74 Assigning to an attribute that names a child sets the child | Flat | names and shapes given to the objects of the hierarchy model, a regular expression as a predicate; composed with the attributes of Names | partial. The first child with the printing form is set; reading gives the same child unless two children share the printing form, which is refuted. A single number is assigned. |
| C75 Lookup by regular expression finds exactly the matching parts | Flat | names and shapes given to the objects of the hierarchy model, a regular expression as a predicate; traverse as a pre-order list, filtered | partial. Exact for names relative to the top of the hierarchy; below the top names are not relative to m, which is refuted; after a NameError the object is left unusable, refuted. |
| C76 Assignment by regular expression sets exactly the matching parts | Flat | names and shapes given to the objects of the hierarchy model, a regular expression as a predicate; composed with assignments and concatenations | proved. Names are relative to the top of the hierarchy (see C75). A single number is assigned. Some Param is among what is matched; several matches without any are a ValueError. |
| C77 Optimisation leaves fixed parameters alone and constrained ones in their domain | Dom | the hierarchy model; invariant over all histories on top of the effects of each call; the real transformations put in from the Transform component | partial. Proved over all histories in which assigned values respect the domains and linking loses no values (C36 says when); both provisos are shown to be needed. |
| C78 An observer of an array is never out of date | Arr | arrays as class, buffer, positions, observer list and flag over one memory; every call of an observer recorded with the memory it saw; invariant over all histories | proved. Rules spelled out in ArrSpec.by_rules; C79 shows what happens without them. |
| C79 Every change of an observed array is announced, however it is made | Arr | arrays as class, buffer, positions, observer list and flag over one memory; every call of an observer recorded with the memory it saw; refutations | partial. False of the code in each of these ways; C78 proves what remains. |
| C80 In-place changes change exactly what they name and are announced a known number of times | Arr | arrays as class, buffer, positions, observer list and flag over one memory; every call of an observer recorded with the memory it saw; exact effect of each call | proved.  |
| C81 Copies of arrays are independent | Arr | arrays as class, buffer, positions, observer list and flag over one memory; every call of an observer recorded with the memory it saw; invariant over later histories | partial. Proved for copy(); what an index array selects shares the observers (refuted), not the memory (proved). |
| C82 Views stay views | Arr | arrays as class, buffer, positions, observer list and flag over one memory; every call of an observer recorded with the memory it saw; invariant over later histories | proved.  |
| C83 Cached methods behave like uncached ones | Meth | objects with dictionaries of the cachers of CachingModel; bodies are programs that call cached methods; invariant: every cacher is in a state reachable in the sense of C12-C17 for the uncached method; induction on histories and on the depth of calls | proved. For methods that depend on the contents of their non-ignored arguments, and cachers of bound methods only for methods that do not look at their object (C89). Bodies do not change objects. |
| C84 Every object has a cache of its own for every method | Meth | objects with dictionaries of the cachers of CachingModel; bodies are programs that call cached methods; the same invariant, and what a call can touch | proved.  |
| C85 The switch of an object governs all its caches | Meth | objects with dictionaries of the cachers of CachingModel; bodies are programs that call cached methods; invariant tying the flags to the history; refutations | partial. Proved for programs that use the switches of objects; single cachers and copies do not keep their settings (refuted). |
| C86 A repeated call of a cached method is not executed again | Meth | objects with dictionaries of the cachers of CachingModel; bodies are programs that call cached methods; counter of executions | proved.  |
| C87 How arguments are written does not matter | Meth | binding of arguments, related to a declarative description | proved.  |
| C88 force_kwargs forces the execution of a decorated method | Meth | refutation | partial. False of the code. |
| C89 A cacher of a bound method sees changes of its object | Meth | refutation | partial. False of the code. |
| C90 An element has one gradient, shared by all levels of the hierarchy | Gm | hierarchies of PzModel with a second memory for the gradients, on which every call that moves memory runs a second time; invariant over all histories | partial. x.gradient = v raises on a Parameterized without elements (refuted); everything else is proved. |
| C91 Linking, unlinking and copying keep the gradients | Gm | hierarchies of PzModel with a second memory for the gradients, on which every call that moves memory runs a second time; the results on values (C36) for the second memory | partial. As for values (C36): false at depth 2 and below (refuted), proved above. |
| C92 The optimizer gets the stored gradients | Gm | hierarchies of PzModel with a second memory for the gradients, on which every call that moves memory runs a second time; composition of storing and taking | proved.  |
| C93 The gradient is in m.gradient at all times | Gm | hierarchies of PzModel with a second memory for the gradients, on which every call that moves memory runs a second time; exact effect; refutation | partial. False of the code for transformed parameters; what happens instead is proved. |
| C94 The gradient handed to the optimizer is the optimizer's | Gm | hierarchies of PzModel with a second memory for the gradients, on which every call that moves memory runs a second time; results are either lists or the array itself, looked at in later states | partial. Proved if an element is fixed; otherwise the array of the model itself is handed out (refuted, and proved to stay the model's gradient). |
| C95 SCG on a model does what SCG does | Ow | arrays by identity, SCG and optimize as state machines on them; refinement of the SCG of the Scg component, step by step; refutation by a run computed exactly | partial. Proved if an element is fixed; otherwise refuted, because new and old gradient are one array (C96 says what then happens). |
| C96 SCG on a model descends whatever is shared | Ow | arrays by identity, SCG and optimize as state machines on them; invariant of the loop over an abstraction that allows both ways of sharing | proved. Includes that without fixed elements every step is one of gradient descent. |
| C97 Optimizing leaves the model at the recorded optimum | Ow | arrays by identity, SCG and optimize as state machines on them; invariant over the runs: recorded arrays differ from the model's own; refutation | partial. optimize: proved. optimize_restarts: proved if an element is fixed or every run improved, refuted otherwise. |
| C98 Arrays handed out are the user's | Ow | arrays by identity, SCG and optimize as state machines on them; invariant over all histories; refutations | partial. Proved if an element is fixed; otherwise refuted both ways. |
| C99 Observers are called once per registration, in order | Hk | hierarchies of PzModel in which every object has its list of registrations, of users and of paramz; a call yields the sequence of what is called; the events of every call, by induction over the traversal; order as a relation between events | proved. Two qualifications are part of the theorems: constraining a Param calls everything twice, and an update from above leaves out what is registered at -inf with the parts. |
| C100 Whoever's values change is told | Hk | hierarchies of PzModel in which every object has its list of registrations, of users and of paramz; a call yields the sequence of what is called; the elements a call changes against the objects it tells, for every pattern of fixes; refutations by concrete hierarchies | partial. Writing to a Parameterized as a whole changes fixed parts without telling them (refuted; proved for the others); observers at -inf are not told (refuted). Proved for all other calls. |
| C101 Derived quantities stay current | Hk | hierarchies of PzModel in which every object has its list of registrations, of users and of paramz; a call yields the sequence of what is called; events interpreted as recomputations; induction over the sequence of calls | partial. As C100: false when a Parameterized with a fixed part is written to as a whole. |
| C102 The optimization display shows the current model | Hk | hierarchies of PzModel in which every object has its list of registrations, of users and of paramz; a call yields the sequence of what is called; events interpreted as recomputations and readings; induction over the steps of the optimizer | partial. False at the default priority, which the display uses: it is exactly one step behind. True at the update's own priority and below. |
| C103 Registrations belong to their object | Hk | hierarchies of PzModel in which every object has its list of registrations, of users and of paramz; a call yields the sequence of what is called; the list after every call | proved.  |
| C104 parameters_changed may set parameters | Re | methods as lists of statements whose writes run other methods; termination by rank and by progress, non-termination by induction on the stack, currency by induction on the execution | partial. Ends if no method leads back to itself or if what is written is progress; never ends if methods surely lead back to themselves, as when an object sets its own parameters (refuted). That everything is up to date is proved whenever the call ends. |
| C105 Observers do not dangle in memory | Gc | a heap with strong and weak references, all programs; an object lives while it is reachable | partial. Proved for callbacks that are not bound to the observer; false for bound methods, which paramz asks for: these keep the observer alive and called as long as the observable lives (proved). |
| C106 A finished run records its outcome | Wr | the classes over an arbitrary answer of the routine; return codes with their documented meaning and the texts with what a reader understands, compared for all codes | partial. Point, objective and count: proved for all but the climin classes, which record the point only and cannot be printed. Status: proved for the codes the tables have; TNC reports an infeasible problem as a constant function, BFGS reports success by an empty status, and codes 6 and 7 of TNC and 3 of BFGS raise an IndexError (refuted). |
| C107 Options given to an optimizer have an effect or a warning | Wr | what each class passes and announces, for all options | partial. Limit, and tolerances of the scipy and SCG classes: proved. False for max_f_eval, bfgs_factor outside lbfgsb, and all tolerances of the climin classes, which are dropped in silence. |
| C108 Runs of the climin optimizers end at max_iters | Wr | the loop over the numbered steps, by induction | proved. With a limit below the first number one step is made. |
| C109 The runtime shown is the time elapsed | Vb | the conversion over rational times, with integer division | proved.  |
| C110 Messages leave no trace in the model | Vb | register, run, remove on the states of Hk, for all runs; by induction over the run | partial. False when the objective fails at the start: the display has registered itself but the with block is not entered, so nothing removes it. |
| C111 What is loaded is what was saved | Pk | the unpickler with its memo as a fuelled depth-first reading of the references; reading a part not met yet is the copying of C70, by induction over the reading; then the invariants of C70-C72 | partial. Proved when references beside parents and children go to parts that come earlier or to parts of the object itself; false for a Param of its own with fixed elements, whose fixes are not respected after loading. |
| C112 What can be saved can be loaded | Pk | the reading of an object with a parent reaches the parent with the object itself unfinished, whatever the order; refutation by a concrete hierarchy | partial. False: no object with a parent can be loaded (proved for all of them), and a root need not be when one part refers to a later part. Proved for roots with tidy references (C111_load_partial). |
| C113 The example's gradient is the derivative of its objective | Rr | real sums over functions of row and column; the loss of other weights expanded around the present ones, then limits | partial. Proved for targets with one column (for the Lasso at weights other than 0, where there is a derivative). False for targets with as many columns as the inputs: the model is made and its gradient is wrong. |
| C114 The example's gradient vanishes exactly at the best weights | Rr | the same expansion, with the penalties bounded from below | partial. A zero gradient means a minimum: proved for both penalties. A minimum means a zero gradient: proved for ridge regression, false for the Lasso. |
| C115 The example is up to date | Rr | every updating call computes all anew; induction over histories; refutations by concrete histories | partial. Proved for histories of updating calls; false after a trigger with all weights fixed, after a second parameters_changed, and after assignments to the data. |
| C116 Calls on a part of a Param act on exactly its elements | Sl | parts as records of what indexing copies, on top of the hierarchy model; calls through an up-to-date part refined to the calls with selections of the hierarchy model | partial. Proved for slices, and for fixing and releasing also for lists of positions. False for values through lists of positions (a part is then a copy, so constraining through it leaves values outside the domain) and for parts of parts (p[2:][0:1].fix() fixes element 0). |
| C117 A part of a Param stays one | Sl | frame lemmas for every call that does not link; refutations by concrete histories | partial. Proved for histories that do not link, unlink, initialise or copy and leave the switch of updates as it was; false after the Param was linked and after updates were switched. |
| C118 A part is fixed when its elements are | Sl | counting of index lists without duplicates | partial. Proved when all fixed elements of the Param are in the part; false both ways otherwise, since the fixed elements of the whole Param are counted. |
| C119 A single position and an empty selection are refused | Sl | computation on any reachable state | proved.  |
| C120 Restarts in parallel end at the best run | Pa | jobs with arbitrary outcomes, their objects shared within chunks; the end of the call as in Run | partial. Proved when no run fails, no Optimizer instance was passed and there is something to optimize. False otherwise: robust is not respected, a passed instance is shared within chunks, and with nothing to optimize the call fails. |
| C121 In-place arithmetic on matched parameters changes exactly them | Ip | the assignment through a concatenation (C55) with the values combined in place, and the reading and writing of m[regexp] around it | partial. The effect on the values is proved for concatenations and for m[regexp] op= v when a Param is matched. False: c is None after c op= v; one matched Parameterized is a TypeError; on a model that is not initialised the values change and then an AttributeError is raised. |
| C122 A printed Param shows each element with its own index, value and constraints | Pr | the text itself, character by character, over arbitrary functions that write numbers and constraints; the three columns related to the elements by induction; parts on top of Sl; refutation by a concrete part of a part | partial. Proved for Params, for several Params found by name and for parts of Params of one dimension. False for parts of parts, whose lines show the index and the constraints of other elements. An empty Param or part cannot be printed (ValueError, proved). |
| C123 The printed summary lists every Param below, once and in order, with its constraints | Pr | the three recursions over the hierarchy related to its list of Params; text as in C122 | partial. Proved when no Param below has a first axis of length 0; with one, nothing can be printed (IndexError, proved). |
| C124 Columns of printed tables are aligned | Pr | lengths of the lines of C122 and C123; refutations by concrete texts | partial. Proved for the summary. False for the table of a Param, whose column of values is measured with another format than it is printed with (proved when the values fit), and for the labels of a Model. |
| C125 The head of a printed Model counts all and free elements | Pr | the text, with the number of free elements from the specification of C30 | proved.  |
| C126 SCG takes exactly the steps of the scaled conjugate gradient method | Scg | an inductive description of the method, independent of the loop; invariant of the loop that relates the recorded iterations to it | proved. Over the reals; the case of a zero gradient at the start is C54. |
| C127 A child linked at the end gets the first free numbered name | Names | the sequence of names described on strings, independently of the regular expression; induction on the nested recursion that only the last child is renamed, along this sequence | proved.  |
| C128 Statements on observable arrays that make no sense are refused and change nothing | Arr | arrays as class, buffer, positions, observer list and flag over one memory; every call of an observer recorded with the memory it saw; case analysis against an independent list of senseless statements | proved.  |
| C129 Constraints asked for and given up by name, across copies, pickles and processes | Bd | models as their constraint dictionaries over the transformation objects of Inst; objects die with their last model; invariant over all programs that the objects in dictionaries are registered and well formed, and that two of the same kind are the same as long as nothing is loaded beside its like; refutation by a concrete program | proved. C129_unconstrain is for programs that load no model beside a model with the same bounds; C129_loaded_refuted shows that the condition is needed; C129_at_most and C129_class say what holds without it. |
| C130 Removing an observer removes its registrations and no others, whatever the observer is | Oe | the lists of Observers with an arbitrary, possibly failing comparison of observers; the backwards loop characterised by induction; NumPy's comparison put in | partial. Proved for observers that can be compared and equal only themselves; false for arrays and parameters as observers (refuted). What happens in general is proved exactly. |
| C131 Param(name, array) makes a new parameter and leaves everything else as it is | Cn | arrays as objects with a class, memory, observers and constraints, all programs of eight calls; invariant of the states that programs without a second construction reach | partial. Proved for plain arrays, and that programs which make parameters from plain arrays only keep parameters and models in step. False for observable arrays and parameters (refuted); what then happens is proved exactly. |
| C132 What was said of an element stays with it when parameters are linked and unlinked, for every index operation | Io | leaves and nodes with dictionaries of relations, own or views; invariant over all programs; linking and unlinking keep what is seen | proved. For hierarchies of one level; several levels are covered for the constraints (C29, C30). |
| C133 Linking works or leaves everything as it was | Io | the same; when the loops of linking stop early; refutations | partial. When it succeeds is proved exactly; that a failure changes nothing is false (refuted in both ways). |
| C134 An index operation added to one object changes no other object | Io | the same, with the names that have become properties of the class | partial. Proved for all names but that of the new index operation; for that name it is false (refuted), and what then happens is proved for all objects. |
| C135 disable_caching reaches all of a hierarchy | Hc | objects with children, dictionaries of cachers and cachers as attributes, all programs of nine calls; invariant that the dictionaries hold the cachers made last; invariant of what stays off | partial. What the switches reach is proved exactly, for all programs; that it is everything is false after copying (refuted). |
| C136 A copy computes with its own data through its Cachers | Hc | the same; recursive copies by induction on the hierarchy; refutations by concrete programs | partial. What a copy is, and that its Cachers give what the methods of the original give, is proved; that they compute with the copy and obey its switch is false (refuted). |
| C137 Every object of a hierarchy can be pickled | Hc | the same; the root of the hierarchy is unique | partial. False of the code if there are Cachers (refuted); exactly when it fails is proved. |
| C138 save writes all values, and they can be loaded again | Sv | hierarchies as trees, an HDF5 file as a list of datasets; induction over trees; the loop over the names characterised by induction | partial. Proved for all hierarchies whose flattened names are different; when they collide saving fails (refuted; exactly when is proved). |
| C139 unfixed_param_array has the values of the free elements | Uf | one definition on top of the hierarchies of Pz and its invariant; the mask and the selection by the lemmas of PzFix and PzOpt; writing by the lemma about stores of PzVal | partial. Proved for every initialised Parameterized with elements; a Param gives None or raises, and an object that lost its last parameter gives its old values (refuted). |
| C140 optimizer_array of a part follows what is fixed | Uf | on the model of Pz; the getter by the invariant of Pz; witnesses computed | partial. Proved for objects that keep no mask from an earlier reading; false after a reading and a further fix, and for Params (refuted). |
| C141 A notebook shows what print shows | Ht | the HTML as text, on top of the model of printing; rows by the lemmas of PrProofs and PrFinal, names by induction on the tree | partial. The contents are proved; the names of the table of a Parameterized are those printed only if they need no adjustment (refuted otherwise). |
| C142 The HTML is well-formed | Ht | a grammar of texts with tags and of closed lists of tags; a reader proved to agree with it; counting of the tags that open and close tables | partial. Proved for Parameterized and Model if constraints and numbers have no markup characters; nothing is escaped, and the table of a Param is never closed (refuted). |

## What is modelled

| source | modelled in | left out |
|---|---|---|
| core/index_operations.py | IndexOpsModel.v | arrays are values, not objects (sharing of returned arrays) |
| core/lists_and_dicts.py | IndexOpsModel.v (IntArrayDict), ObserversModel.v (ObserverList), OeModel.v (its comparison of observers) | printing; ArrayList beyond identity lookup |
| core/observable.py | ObserversModel.v; PzModel.v for the observers paramz makes itself; HkModel.v for both together on a hierarchy; ReModel.v (updates that cause updates); GcModel.v (weak references) | |
| core/observable_array.py | ArrModel.v (all but pickling), PkModel.v (pickling), ObserversModel.v (`__new__`, `__init__`), CachingModel.v (slices, notification on assignment) | dtypes, shapes, what selects which positions, broadcasting, the bytes of a pickle |
| caching.py | CachingModel.v (class Cacher), MethModel.v (FunctionCache, Cache_this, cachers of bound methods, deep copies of caches), HcModel.v (cachers of bound methods as attributes: switches over a hierarchy, copies, pickles) | functions with `*args`, `**kwargs` or keyword-only parameters, methods that change objects while they run |
| transformations.py | TransformModel.v (the numerical methods), InstModel.v (`__new__`, `__del__`) | plotting, `__str__`; floating point rounding |
| parameterized.py | PzModel.v, NamesModel.v (naming), ConcatModel.v (concatenations), FlatModel.v (`m[regexp]`, `m[regexp] = v`, `m.name = v`), CopyModel.v (`copy`, `__setstate__`), PrModel.v (`__str__`), HtModel.v (`_repr_html_`) | build_pydot, values other than single numbers in assignments by name, the metaclass beyond the in-init flag and the call of `initialize_parameter` |
| param.py | PzModel.v, RavelModel.v (`_indices`, `_raveled_index`), ConcatModel.v, CopyModel.v (`copy`, `__deepcopy__`), SlModel.v (parts of Params), IpModel.v (in-place operators, comparisons), PrModel.v (`__str__`), HtModel.v (`_repr_html_`), CnModel.v (the constructor) | `__repr__`, build_pydot |
| core/parameter_core.py, core/indexable.py, core/constrainable.py, core/parentable.py, core/updateable.py | PzModel.v, FlatModel.v (`parameter_names_flat`), UfModel.v (`unfixed_param_array`), PrModel.v (`parameter_names`), HtModel.v (the same, not adjusted), GmModel.v (`gradient`), BdModel.v (`constrain_bounded` etc. over copies, pickles, processes), IoModel.v (index operations of any name), HcModel.v (`enable_caching`, `disable_caching`), SvModel.v (`save`) | `gradient_full` (like `gradient`), logging, warnings |
| core/nameable.py | NamesModel.v, FlatModel.v (`hierarchy_name`) | |
| core/pickleable.py | CopyModel.v (copies), PkModel.v (`pickle`, state) | the bytes of a pickle, opening files, loading in another process or after further calls, sharing of index operations between the views of one loaded hierarchy before its root has its state |
| core/gradcheckable.py, model.py (checkgrad) | CheckModel.v | failing evaluations, output |
| model.py (optimize, optimize_restarts, `_grads`, ...) | RunModel.v, GmModel.v (what `_grads` returns), OwModel.v (the arrays that optimize and optimize_restarts keep), PaModel.v (restarts in parallel), PrModel.v (`__str__`), HtModel.v (`_repr_html_`) | output |
| optimization/optimization.py | RunModel.v (get_optimizer, results of a run); WrModel.v (constructors, what each class passes, announces and records) | the routines of scipy and climin themselves (arbitrary answers), the time of a run |
| optimization/scg.py | ScgModel.v (gradients as values), OwModel.v (gradients as arrays of the model) | rounding, output |
| optimization/verbose_optimization.py | HkSpec.v (`watch`: an observer registered as the display is); VbModel.v (the time string; registration, counting and removal) | notebooks, which lines are printed, floats in the time |
| `__init__.py` | PkModel.v (`load`) | the second attempt after an UnpicklingError, python 2 |
| param.py `__getitem__`, `__array_finalize__`, `_raveled_index`, `is_fixed` of parts | SlModel.v | Params of more than one dimension (RavelModel.v), gradients of parts, negative steps |
| examples/ridge_regression.py | RrModel.v | rounding, the cache of the basis (C12-C17), the hierarchy (only who updates when) |
| domains.py, util.py | not modelled | |

Python-level limits of the models: user code (`parameters_changed`, observers, cached operations, objectives) is
arbitrary but does not change paramz's internals other than through the calls of the model; integers are unbounded;
memory is never exhausted; there is one thread, except for the overlapping calls of C20.

## Findings: where the code violates a property

Each is a theorem `..._refuted` with a witness reached by ordinary calls.

* C02: `remove` returns repeated indices when called with repeats.
* C18, C19, C20, C62, C63 (caching): calls that differ only in a keyword's name share an entry; writing through a slice
  of a cached input does not invalidate; an overlapping call can leave an entry that is never evicted; limits of 0 and
  below do not work; changes made while updates are off are missed.
* C85, C88, C89 (cached methods): switching an object off and on switches single cachers on; copies do not keep the
  switch; `force_kwargs` has no effect through the decorator; a cacher of a bound method misses changes of its object.
* C90, C91, C93, C94 (gradients): `m.gradient = v` raises on an empty model; gradients are lost by deep links; asking for
  the optimizer's gradient overwrites `m.gradient` with the transformed one; without fixed elements the optimizer gets
  the model's own array, which the next evaluation overwrites.
* C95, C97, C98 (arrays shared with the optimizer): without fixed elements the new and the old gradient of SCG are one
  array, so it never uses conjugate directions nor curvature; `optimize_restarts` can end at the wrong run's point, because
  the point a run returns may be the array the next run writes into; writing into the array read as `optimizer_array`
  changes what is read next.
* C22-C24, C26 (transformations): NegativeExponent is not its own inverse, has the wrong gradient sign and log-Jacobian
  nan; Exponent and Square have wrong gradient factors outside the working range.
* C27: copies, inexact bounds, subclasses and failed constructions break the sharing of Logistic objects.
* C31, C46: an object can be linked below itself; a refused link leaves marks of the search set.
* C33: elements fixed before `fix()` are free after `unfix()`.
* C34, C37, C39, C65 (optimizer array): read below the top it hands out fixed elements; it is stale after changes with
  updates off and after `unconstrain`; a vector of the wrong length is accepted.
* C35, C36 (memory): two Params can share memory after refilling an emptied object; values are lost when deep
  uninitialised hierarchies are linked or unlinked.
* C44, C60 (updates): an object linked in while updates are off is not silenced; `randomize` gives the whole hierarchy
  the switch of one object.
* C47, C48, C66 (names): a trailing newline is let through; equal sibling names when linking into a part of a larger
  object; children missing as attributes.
* C49, C50, C51 (optimization): a failing gradient is raised at once; nan objectives, shared Optimizer objects; documented
  optimizer names that do not resolve as documented.
* C54, C64 (SCG): the scale leaves its bound, a zero initial gradient divides by zero, `max_f_eval` is not read.
* C55-C57 (concatenations): partial selections of a parameter assign wrong elements; the second assignment does not
  notify; zeros and order are lost on reading.
* C73-C75 (names of elements): an empty Param shifts the flat names; fixed elements are not left out below the top; two
  siblings can share all names; `m.name = v` can set another child than `m.name` reads; below the top `m[regexp]` does not
  look up names relative to `m`; one lookup that fails on an unprintable name disables all later ones.
* C58: separated integer indices give wrong flat positions.
* C59: `checkgrad` leaves the gradient transformed in place.
* C61: wrapping an ObsAr again drops its observers.
* C79, C81 (arrays): changes through `a.values`, through the array given to ObsAr, after `a += b`, by `fill` and the
  like, through slices taken while updates were off, and after `ObsAr(a)` are not announced; slices taken before updates
  were switched off announce theirs; writing to `a[index array]` calls the observers of `a`, which has not changed.
* C100, C101 (observers): writing to a Parameterized as a whole changes its fixed parts without calling their observers or
  `parameters_changed`; observers at -inf are not told of updates from above.
* C102: the optimization display is always one step behind.
* C104: a `parameters_changed` that sets a parameter of its own object never ends, also with updates switched off meanwhile.
* C105: an observer registered with one of its own methods is kept alive by its registration.
* C106: documented return codes of TNC and BFGS are reported wrongly, by an empty status, or by an IndexError; a climin
  optimizer cannot be printed.
* C107: `max_f_eval`, `bfgs_factor` and the tolerances of climin optimizers are dropped in silence.
* C110: an objective that fails at the start leaves the display registered with the model.
* C112: an object that has a parent can be pickled and not loaded; neither can a hierarchy in which an object has an
  attribute that is a part of a later sibling.
* C111: a fixed Param that was loaded does not respect the fix.
* C113: the regression example takes targets with as many columns as the inputs and then has a wrong gradient.
* C115: its gradient drifts when an update is triggered while all weights are fixed.
* C116: `p[[0, 2]].constrain_positive()` adds the constraint without changing the values, which stay negative; `p[[0, 2]][...] = v`
  and `p[[0, 2]].fix(v)` lose `v`; `p[2:][0:1].fix()` fixes element 0 and not element 2.
* C117: a part taken before its Param gets a parent keeps the old memory and no parent: what is assigned through it is lost,
  what is fixed through it is changed by the optimizer. A part taken while updates are off never updates the model.
* C118: `p[s].is_fixed` compares the number of fixed elements of the whole `p` with the size of the part.
* C120: `optimize_restarts(parallel=True, robust=True)` raises when one run fails, and keeps none of the others; with nothing
  to optimize it fails and leaves `None` among the runs.
* C121: after `c = m[regexp]; c += 1` the name `c` is `None`; `m['k'] += 1` is a TypeError when `k` is a Parameterized, though `m['k'] = 1`
  works; `m[regexp] += 1` on a model that is not initialised changes the values and raises an AttributeError.
* C122: `print(p[2:][0:1])` shows the value of element 2 with the index and the constraints of element 0; an empty Param
  or part cannot be printed (ValueError).
* C123: `print(m)` is an IndexError when any Param below has a first axis of length 0.
* C124: the column of values of a printed Param is measured with `.8g` and filled with `.8f`, so lines differ in length when
  the name is short; the labels of a printed Model are padded to 2 characters, the number of entries of a pair.
* C129: a pickle that is loaded in a process where a model with the same bounds lives brings its own `Logistic` objects;
  `unconstrain_bounded(lower, upper)` finds the other ones and removes nothing from the loaded model, without an error
  (`C129_loaded_refuted`). `unconstrain()` does remove them (`C129_all`).
* C130: `ObserverList.remove` compares observers with `==`. An observer that is an array (ObsAr, Param) with several
  elements cannot be removed, nor any observer at the same priority (ValueError, `C130_array`, `C130_beside`); an empty
  one is not removed, in silence (`C130_empty_refuted`); of one-element arrays with equal contents the wrong one goes too
  (`C130_equal_refuted`).
* C131: `Param(name, p)` of a Param p is p itself: it loses its observers and its constraints and gets the new name, but
  the model it is linked to keeps it, so the model is not told of changes any more and follows constraints that p does
  not show (`C131_refuted`, `C131_again`). `Param(name, a)` of an ObsAr is that ObsAr, which cannot be linked
  (`C131_observable`).
* C133, C134: linking a parameter whose index operations have other names than those of the parent is a KeyError half way:
  constraints of elements that do not exist stay in the parent, or the parameter is linked and has lost an index
  operation. `add_index_operation(name, ...)` makes `name` a property of the class of all objects, so that an attribute of
  that name becomes unreadable everywhere.
* C135, C136, C137: a copied Cacher of a bound method stays bound to the original object and takes the place of the original
  Cacher in the original's cache: the copy computes with the original's data, `disable_caching()` of the original no longer
  reaches its own Cacher, that of the copy reaches nothing. A hierarchy with a Cacher as an attribute (as in the example
  `ridge_regression`) cannot be pickled, nor can any part of it.
* C138: `save` fails for a model with a Param `a_b` beside a Parameterized `a` with a Param `b`, by raising a string (so a
  TypeError that does not name the cause), after it has emptied the file.
* C139: `unfixed_param_array` of a Param is None, or raises TypeError if an element is fixed; that of a Parameterized that lost
  its last parameter still has the old values. It is a view without fixed elements and a copy with one.
* C140: below the top, `optimizer_array` keeps the mask of its first reading: what is fixed later is handed to the optimizer. Of
  a Param it has all elements; `p.optimizer_array = p.optimizer_array` puts the value of a fixed element into a free one.
* C141: the HTML of a Parameterized shows the names of its Params as they are, the printed summary the adjusted ones
  (parameterized.py:385 calls `parameter_names()` without `adjust_for_printing`).
* C142: the HTML of a Param lacks `</table>` (param.py:275-311), and nothing that is shown is escaped.
* C77: assigning to a constrained parameter is not checked; linking deep in a hierarchy puts uninitialised memory under
  a constraint.
* C70: the copy of a fixed Param does not respect the fix; copying an object with updates off runs updates.

## Mutation testing

`seeded/LOG.jsonl` has one line for each wrong variant of a model definition tried against the theorems, made in a copy
outside this directory: the definition, the edit, the claim it breaks, the theorems that no longer prove, and those
tightened because of it. "Correcting edit" marks a variant that repairs a fault of the code; then refutations fail.

## Axioms per theorem

What `Print Assumptions` lists. R = `ClassicalDedekindReals.sig_forall_dec`, `ClassicalDedekindReals.sig_not_dec`,
`FunctionalExtensionality.functional_extensionality_dep`; C = `Classical_Prop.classic`. All are axioms of Coq's standard
library (`Reals`, `Logic`).

| file | axioms | theorems |
|---|---|---|
| ArrProps | none (closed under the global context) | C78_up_to_date, C78_start, C79_values_refuted, C79_given_array_refuted, C79_rebound_refuted, C79_methods_refuted, C79_slice_while_off_refuted, C79_rewrapped_refuted, C79_silence_refuted, C80_assignment, C80_operator, C80_slice_operator, C80_index_operator, C81_copy, C81_index_array, C81_index_array_refuted, C82_slice, C82_whole, C82_scattered, C128_refused |
| BdProps | none (closed under the global context) | C129_constrain, C129_unconstrain, C129_class, C129_at_most, C129_all, C129_refused, C129_copy, C129_dump, C129_kept, C129_load, C129_loaded_refuted |
| CachingProps | none (closed under the global context) | C12_fifo_within_limit, C62_negative_limit_refuted, C62_zero_limit_refuted, C13_transparent, C63_updates_off_refuted, C14_hit_does_not_run, C14_not_evicted_early, C15_keys_injective, C15_inputs_exact, C16_registrations_exact, C16_reset_releases, C17_failure_leaves_new_cacher, C18_keyword_order, C18_keyword_names_refuted, C19_slice_write_refuted, C20_overlap_refuted |
| CheckProps | none (closed under the global context) | C59_values_partial, C59_verbose_values_partial, C59_uninitialised, C59_verbose_gradient_partial, C59_gradient_partial, C59_gradient_refuted, C59_off_refuted, C59_stale_refuted, C67_verdict, C67_verbose_verdict |
| CnProps | none (closed under the global context) | C131_made, C131_in_step, C131_observable, C131_again, C131_refuted |
| ConcatProps | none (closed under the global context) | C55_others, C55_values_partial, C55_effect, C55_empty, C55_rejected_positions, C55_rejected_values, C55_refuted, C56_set_partial, C56_refuted, C56_constrain, C56_fix, C57_partial, C57_values, C57_order_refuted, C57_zeros_refuted, C68_constrain, C68_fix, C68_unfix, C68_unconstrain, C69_contents |
| CopyProps | none (closed under the global context) | C70_copy_partial, C70_fixed_refuted, C70_silent_refuted, C71_apart, C72_elsewhere |
| DomProps | R and C | C77_library, C77_library_strict |
| DomProps | none (closed under the global context) | C77_domains, C77_optimisation, C77_assign_refuted, C77_link_refuted |
| FlatProps | none (closed under the global context) | C73_names_partial, C73_free_partial, C73_distinct_partial, C73_empty_refuted, C73_part_refuted, C73_equal_refuted, C74_set, C74_other, C74_read_partial, C74_read_refuted, C75_found, C75_item, C75_unnamed, C75_part_refuted, C75_after_error_refuted, C76_set, C76_updates, C76_none |
| GcProps | none (closed under the global context) | C105_weak_partial, C105_unbound, C105_freed, C105_bound, C105_dangling_refuted |
| GmProps | none (closed under the global context) | C90_one_gradient, C90_set_partial, C90_edit, C90_apart, C90_set_refuted, C91_link_partial, C91_unlink_partial, C91_deep_refuted, C91_copy, C92_take, C92_stored, C93_at_all_times_refuted, C93_again, C94_snapshot_partial, C94_snapshot_refuted, C94_alias |
| HcProps | none (closed under the global context) | C135_off, C135_stays, C135_on, C135_refuted, C136_copy_partial, C136_values_partial, C136_data_refuted, C136_switch_refuted, C137_pickle_partial, C137_refuted |
| HkProps | none (closed under the global context) | C99_notify, C99_trigger, C99_constrain_twice, C99_runs, C100_heard, C100_assign_partial, C100_fixed_refuted, C100_bottom_refuted, C101_current, C101_assign_partial, C102_low, C102_lags, C102_display_refuted, C103_kept, C103_fresh, C103_add, C103_remove |
| HtProps | none (closed under the global context) | C141_summary, C141_names_partial, C141_param, C141_model, C142_summary_partial, C142_model_partial, C142_param, C141_names_refuted, C142_param_refuted, C142_escape_refuted |
| IndexOpsProps | none (closed under the global context) | C01_sorted_unique, C01_size_exact, C02_add_exact, C02_remove_exact, C02_update_exact, C02_remove_returns_partial, C02_remove_returns_refuted, C03_shift_right_exact, C03_shift_left_exact, C03_shift_roundtrip, C04_view_window, C04_view_add_seen, C04_view_remove_seen, C05_clear_exact, C05_delete_exact, C05_delete_root_exact, C05_copy_same, C05_copy_lookup, C06_properties_for, C06_properties_dict_for, C07_lookup_pure |
| InstProps | none (closed under the global context) | C27_one_per_class, C27_arguments, C27_one_per_bounds_partial, C27_bounds_stay, C27_different, C27_copy_refuted, C27_failed_refuted, C27_rounding_refuted, C27_subclass_refuted |
| IoProps | none (closed under the global context) | C132_link, C132_unlink, C132_agree, C132_add, C133_when, C133_lacks_refuted, C133_more_refuted, C134_attributes_partial, C134_refuted |
| IpProps | none (closed under the global context) | C121_concatenation, C121_rejected, C121_name, C121_name_refuted, C121_item_partial, C121_updates, C121_node_refuted, C121_uninitialised_refuted, C121_param, C121_refused, C121_none, C121_compare |
| MethProps | none (closed under the global context) | C83_transparent, C84_separate, C84_untouched, C85_switch, C85_off_executes, C85_single_refuted, C85_copy_refuted, C85_deepcopy_refuted, C86_once, C86_again, C87_same_call, C87_wrong_call, C87_binding, C88_force_refuted, C89_bound_refuted |
| NamesProps | none (closed under the global context) | C47_identifier_partial, C47_newline_refuted, C47_translation, C47_unchanged, C47_idempotent, C47_error, C48_differ, C48_nested_refuted, C48_only_conflicts, C48_bystander_refuted, C48_others_keep, C48_earlier_keep, C48_comes_to_an_end, C66_sound, C66_reached_partial, C66_printable, C66_shared_refuted, C66_reserved_refuted, C66_nested_refuted, C66_bad_name_refuted, C127_new_name |
| ObserversProps | none (closed under the global context) | C08_priority_order, C09_notify_exact, C10_remove_exact, C10_change_priority_exact, C11_snapshot, C61_rewrap_keeps_observers_refuted |
| OeProps | none (closed under the global context) | C130_removed, C130_raises, C130_at_most, C130_done, C130_priority, C130_array, C130_beside, C130_array_refuted, C130_empty_refuted, C130_equal_refuted |
| OwProps | R | C95_refines_partial, C95_refines_refuted, C96_run, C97_optimize, C97_restarts_partial, C97_restarts_refuted, C98_snapshot_partial, C98_snapshot_refuted, C98_last_set_partial, C98_last_set_reads_partial, C98_last_set_refuted |
| PaProps | none (closed under the global context) | C120_best_partial, C120_failure, C120_robust_refuted, C120_stopped, C120_shared_refuted, C120_nothing, C120_nothing_refuted |
| PkProps | none (closed under the global context) | C111_load_partial, C111_apart, C111_fixed_refuted, C112_part, C112_plain, C112_cross_refuted |
| PrProps | none (closed under the global context) | C122_table, C122_empty, C122_part_partial, C122_part_empty, C122_several, C123_summary, C123_empty, C124_summary, C124_table_partial, C125_model, C122_nested_refuted, C124_table_refuted, C124_labels_refuted |
| PzProps | none (closed under the global context) | C28_sizes_add_up, C29_link_keeps_constraints, C29_unlink_keeps_constraints, C29_same_everywhere, C29_nothing_else, C30_constrain, C30_unconstrain, C30_fix, C30_unfix, C31_refused_partial, C31_loop_refuted, C31_self_refuted, C32_one_transformation, C33_fix_unfix_partial, C33_fix_unfix_refuted, C34_length_partial, C34_leaf_refuted, C35_one_copy, C35_write, C35_constrain_values, C35_apart_partial, C35_apart_refuted, C36_link_values_partial, C36_unlink_values_partial, C36_deep_refuted, C36_deep_unlink_refuted, C36_refill_refuted, C37_set_get, C37_get_set_partial, C37_get_set_refuted, C38_set, C65_any_length, C65_length_refuted, C39_get_partial, C39_after_assign_partial, C39_after_constrain_partial, C39_updates_off_refuted, C39_unconstrain_refuted, C40_gradient, C41_indices, C42_assign_order, C43_trigger_order, C44_off_partial, C44_on, C44_link_refuted, C45_traverse, C46_failed_link_refuted, C60_randomize_partial, C60_switch_refuted |
| RavelProps | none (closed under the global context) | C58_position, C58_bijection, C58_increasing, C58_whole, C58_indexed_partial, C58_rejected, C58_empty, C58_separated_refuted |
| ReProps | none (closed under the global context) | C104_ends_partial, C104_stays_partial, C104_up_to_date, C104_progress_partial, C104_never, C104_own_refuted |
| RrProps | R | C113_gradient_partial, C113_predict, C113_refused, C113_columns_refuted, C114_minimum, C114_unique, C114_supports, C114_stationary_partial, C114_lasso_refuted, C115_always_partial, C115_again_refuted, C115_fixed_refuted, C115_data_refuted |
| RunProps | none (closed under the global context) | C49_tolerated_partial, C49_raised, C49_success, C49_gradient_refuted, C50_robust_partial, C50_strict_partial, C50_nothing, C50_nan_refuted, C50_shared_refuted, C50_none_refuted, C50_verbose_refuted, C51_first, C51_error, C51_full_name, C51_case, C51_documented_refuted |
| ScgProps | R | C52_monotone, C53_budget, C53_status, C54_steps, C54_scale_bound_refuted, C54_zero_gradient_refuted, C64_evaluation_limit_refuted, C126_method, C126_vectors |
| SlProps | none (closed under the global context) | C116_take, C116_fix, C116_unfix, C116_unconstrain, C116_constrain_partial, C116_assign_partial, C116_fix_value_partial, C116_updates, C116_copy_refuted, C116_nested_refuted, C117_reads, C117_stays_partial, C117_link_refuted, C117_updates_refuted, C118_partial, C118_refuted, C119_number, C119_empty |
| SvProps | none (closed under the global context) | C138_when, C138_content_partial, C138_restore_partial, C138_refuted |
| TransformProps | R | C22_square, C22_square_all, C23_square, C24_square, C24_square_negative_refuted, C25_logistic_midpoint |
| TransformProps | R and C | C21_domains, C22_logexp, C22_neglogexp, C22_logexp_gap_error, C22_logexp_below, C22_exponent, C22_exponent_all, C22_logistic, C22_negexponent_refuted, C23_logexp, C23_neglogexp, C23_exponent, C23_logistic, C23_negexponent_refuted, C23_zero_refuted, C24_logexp, C24_logexp_gap_error, C24_logexp_below_error, C24_neglogexp, C24_exponent, C24_logistic, C24_negexponent_refuted, C24_exponent_outside_refuted, C25_initialize, C26_logexp, C26_exponent, C26_logexp_grad, C26_exponent_grad, C26_negexponent_refuted, C26_logexp_grad_above_refuted, C26_default_refuted |
| UfProps | none (closed under the global context) | C139_content_partial, C139_live_partial, C139_own_partial, C139_param, C139_param_refuted, C139_emptied_refuted, C140_unread_partial, C140_stale_refuted, C140_round_refuted |
| VbProps | none (closed under the global context) | C109_runtime, C110_removed, C110_count, C110_left_refuted |
| WrProps | none (closed under the global context) | C106_recorded, C106_climin, C106_status_partial, C106_raises, C106_quiet, C106_wrong_refuted, C106_silent_refuted, C106_crash_refuted, C107_limit, C107_max_f_eval, C107_tolerance_partial, C107_default, C107_factor, C107_climin, C107_dropped_refuted, C108_ends, C108_steps |
