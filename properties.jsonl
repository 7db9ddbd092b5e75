{"id": "C01", "title": "Evolution keeps the optical system acyclic", "statement": "Starting from an acyclic graph, any sequence of evolution operators (add-series, add-parallel, remove, swap), each applied at a location that the operator itself offers for the current graph, yields an acyclic graph; consequently the topological ordering needed by update_graph and propagate always exists and never raises.", "quantifier": "every acyclic multigraph, every finite sequence of operators, every offered location, every random choice of new component", "why_tests_cant": "The number of operator histories is unbounded and the cycle risk comes from merging the two ends of a removed edge, which depends on global reachability.", "anchors": ["simulator/fiber/evolution_operators/evolution_operators.py:AddSeriesComponent.apply_evolution", "simulator/fiber/evolution_operators/evolution_operators.py:AddParallelComponent", "simulator/fiber/evolution_operators/evolution_operators.py:RemoveComponent", "simulator/fiber/evolution_operators/evolution_operators.py:SwapComponent", "lib/graph.py:update_graph"]}
{"id": "C02", "title": "Evolution never creates or destroys terminals and leaves no dangling component", "statement": "Along any such sequence the set of nodes without incoming edges and the set of nodes without outgoing edges stay exactly what they were, their node models stay the same objects, and every node of the resulting graph lies on a directed path from a source terminal to a sink terminal.", "quantifier": "every acyclic graph, every operator sequence at offered locations", "why_tests_cant": "It is a global connectivity property after unboundedly many structural edits.", "anchors": ["simulator/fiber/evolution_operators/evolution_operators.py:AddSeriesComponent", "simulator/fiber/evolution_operators/evolution_operators.py:RemoveComponent.apply_evolution", "lib/graph.py:interfaces"]}
{"id": "C03", "title": "Component families stay where they belong", "statement": "If initially every edge leaving a source terminal carries a source model, every other edge entering a sink terminal carries a sink model, all remaining edges carry single-path models and all inner nodes carry multi-path models, this remains true after any sequence of operator applications at offered locations. The default library offers every class of component but the terminals and five unregistered ones, each under its family; a custom library exists exactly for lists without terminals and offers the listed classes, each once and under its family.", "quantifier": "every well-typed graph, every operator sequence, every random model choice from the library sets; every list of classes for a custom library", "why_tests_cant": "A violation needs a particular combination of insertions, merges and swaps.", "anchors": ["simulator/fiber/evolution_operators/evolution_operators.py:AddSeriesComponent.apply_evolution", "simulator/fiber/evolution_operators/evolution_operators.py:SwapComponent.apply_evolution", "lib/base_classes.py:EvolutionOperators.__init__", "lib/functions.py:custom_library", "simulator/fiber/assets/decorators.py:register_node_types_all"]}
{"id": "C04", "title": "Protected components survive evolution", "statement": "The collection of protected component models held by the graph (on nodes and on edges, as individual objects) is the same before and after any operator applied at a location it offers: none is removed, replaced or duplicated.", "quantifier": "every graph, every assignment of the protected flag, every operator and offered location", "why_tests_cant": "Requires all placements of protected flags and all merges.", "anchors": ["simulator/fiber/evolution_operators/evolution_operators.py:RemoveComponent.possible_evo_locations", "simulator/fiber/evolution_operators/evolution_operators.py:SwapComponent.possible_evo_locations", "simulator/fiber/evolution_operators/evolution_operators.py:AddSeriesComponent.apply_evolution"]}
{"id": "C05", "title": "Port caps of connectors under evolution", "statement": "Add-series, add-parallel and swap never push any inner node above the connector port maximum (in- or out-degree) if it was within it before. The same is NOT guaranteed by remove: merging the ends of a removed edge can produce a connector with more ports than its declared maximum, and such a graph is reachable from a legal one by offered operations only.", "quantifier": "every graph within caps, every growth/swap operation at an offered location; existence of a reachable offending history for remove", "why_tests_cant": "Positive part ranges over all graphs; the negative part needs a specific multi-step history that the tests do not contain.", "anchors": ["simulator/fiber/evolution_operators/evolution_operators.py:AddParallelComponent.possible_evo_locations", "simulator/fiber/evolution_operators/evolution_operators.py:RemoveComponent.apply_evolution", "simulator/fiber/node_types.py:MultiPath"]}
{"id": "C06", "title": "Each evolution operator has exactly its advertised effect", "statement": "Applied at an offered location no operator raises; add-series adds exactly one node and one new edge and keeps every existing component on an edge with the same relative end points outside the split edge; add-parallel adds exactly one edge and changes nothing else; remove deletes exactly the chosen edge's component and merges its two end nodes if and only if no other directed path joins them; swap changes the model of exactly one location, to a different class of the same family, and nothing else.", "quantifier": "every graph, operator, offered location, random choice", "why_tests_cant": "Frame conditions (what must not change) over arbitrary graphs and parallel edges cannot be enumerated.", "anchors": ["simulator/fiber/evolution_operators/evolution_operators.py:AddSeriesComponent.apply_evolution", "simulator/fiber/evolution_operators/evolution_operators.py:AddParallelComponent.apply_evolution", "simulator/fiber/evolution_operators/evolution_operators.py:RemoveComponent.apply_evolution", "simulator/fiber/evolution_operators/evolution_operators.py:SwapComponent.apply_evolution"]}
{"id": "C07", "title": "Removing the component that add-series just inserted restores the system", "statement": "After add-series at an offered interface whose node is unprotected, remove at the interface of the inserted edge with that same node is offered. At the start of an edge, applying it gives back the original nodes, node models and the same multiset of (from, to, component) connections. At the end of an edge the same components and connections come back, but the end node carries the label of the inserted node: labels are not restored.", "quantifier": "every graph, every offered interface, every inserted component", "why_tests_cant": "Round-trip over arbitrary graphs including parallel edges and repeated keys.", "anchors": ["simulator/fiber/evolution_operators/evolution_operators.py:AddSeriesComponent.apply_evolution", "simulator/fiber/evolution_operators/evolution_operators.py:RemoveComponent"]}
{"id": "C08", "title": "The evolver only ever applies an operator where that operator is offered", "statement": "If at least one operator has a location, the default evolver picks each offered operator/location pair with equal probability and, for every draw, picks an offered pair; if no operator has a location every evolver raises RuntimeWarning. With per-operator weights whose normalised values are non-negative, a pair's probability is the operator's share of the weight of the applicable operators divided by the number of its locations, and an operator of weight zero is never picked. The Hessian evolver does the same except that all removal weight goes to one location, the lowest-scored one in a tournament of half of the removal locations (at least one).", "quantifier": "every acyclic graph, operator list without repetition, weight assignment and every draw of the sampler; for the Hessian evolver graphs with fewer than 1e8 offered pairs", "why_tests_cant": "The row/column index arithmetic must be right for all matrix shapes and for all draws.", "anchors": ["simulator/fiber/evolver.py:ProbabilityMatrix", "simulator/fiber/evolver.py:ProbabilityLookupEvolver.create_graph_matrix", "simulator/fiber/evolver.py:ProbabilityLookupEvolver.evolve_graph"]}
{"id": "C09", "title": "Lineage identifiers form a chain", "statement": "Every successful evolve_graph call makes the previous identifier the parent identifier, assigns a fresh current identifier and records the applied operator; so along any run of evolutions each graph's parent is its predecessor. If the closing parameter-bound assertion fails, the graph has already been modified but keeps its old identifiers. random_graph is such a run, with the step number as generation: it continues with the modified graph after a failed assertion and stops at any other exception.", "quantifier": "every history of evolve_graph calls with any outcome", "why_tests_cant": "Histories are unbounded and the failing path is not exercised by tests.", "anchors": ["simulator/fiber/evolver.py:ProbabilityLookupEvolver.evolve_graph", "lib/graph.py:init_graph"]}
{"id": "C10", "title": "Evolution keeps free parameters inside their bounds; the built-in check is weaker than it claims", "statement": "If every unlocked parameter of a graph is within its component's bounds then this is still so after evolve_graph, and the final assertion of evolve_graph never fires. Conversely the assertion does not detect all violations: there are graphs with an out-of-bounds unlocked parameter for which it passes, because Python lists are compared lexicographically. It sees exactly this: that the first free parameter not equal to its lower bound is below it, or that the first not equal to its upper bound is above it, in the order of extraction; a call that returns has not seen this in its result.", "quantifier": "every graph with in-bound parameters, every operator; existence of an undetected violation", "why_tests_cant": "Unit tests only use library defaults; the lexicographic comparison agrees with the element-wise one on in-bounds data.", "anchors": ["simulator/fiber/evolver.py:ProbabilityLookupEvolver.evolve_graph", "lib/graph.py:extract_parameters_to_list"]}
{"id": "C11", "title": "When the size-aware evolver can fail although a mutation exists", "statement": "At a generation ratio q in [0,1] the generation-dependent evolver gives the growth operators the weight 1-q each, removal 2q and swap 1 (a new one that is told no generation: removal 4, all others 1); the share of an operator among those that apply is spread evenly over its places, except that all of removal goes to one place. It succeeds for a generation ratio in [0,1] whenever the scores can be computed and an operator with positive weight is applicable. At the final generation the growth operators have weight zero, so it raises for graphs on which only growth operators apply (for example the minimal protected laser-splitter-detector system), although a mutation is offered. When it is driven by an integer step index, as random_graph does, it raises from step two on for every graph where both a growth operator and a removal or swap are offered, and still succeeds where only growth is offered.", "quantifier": "every graph, every generation ratio in [0,1], every integer step >= 2; existence for the minimal system", "why_tests_cant": "Failing generations occur only at the very end of long optimisation runs.", "anchors": ["simulator/fiber/evolver.py:HessianProbabilityEvolver", "simulator/fiber/evolver.py:ProbabilityLookupEvolver.random_graph"]}
{"id": "C12", "title": "Building a graph keeps exactly the requested connections and renumbers parallel keys", "statement": "init_graph produces a graph with exactly the given nodes in order and, for each requested connection, one edge carrying that model; parallel edges between the same pair get consecutive keys 0,1,2,... in the requested order whatever key the caller wrote. It raises exactly when the requested wiring has a directed cycle, an edge end is not a declared node, or a node carries a component that is neither a connector nor a terminal.", "quantifier": "every node dictionary and edge dictionary", "why_tests_cant": "All edge dictionaries, including those with arbitrary explicit keys, must be covered.", "anchors": ["lib/graph.py:init_graph", "lib/graph.py:update_graph"]}
{"id": "C13", "title": "Copying a graph keeps its structure but resets splitter ratios", "statement": "duplicate_and_simplify_graph returns, for every acyclic graph, a new graph object with the same nodes, node models and connections (keys renumbered from 0 in order) whose components are new objects with parameter lists of their own; every parameter of non-splitter components is unchanged, the original keeps all its values, and splitter parameters are replaced by the equal-split default, so a tuned splitter is not preserved by the copy that is used for saving the hall of fame.", "quantifier": "every graph and parameter assignment", "why_tests_cant": "Needs a general statement about all graphs; the loss is silent.", "anchors": ["lib/graph.py:duplicate_and_simplify_graph", "lib/graph.py:update_graph", "simulator/fiber/node_types_subclasses/multi_path.py:VariablePowerSplitter.update_attributes", "algorithms/topology_optimization.py:save_hof"]}
{"id": "C14", "title": "Minimal save/load round trip", "statement": "For every non-empty graph whose components are all registered in the library, saving it and loading the file yields a graph with the same components in the same order, the same connections up to relabelling of nodes by class name and position and renumbering of parallel keys, and identical parameter values on every node and edge, including tuned splitters, provided every node's parameter list has the length that the component declares for its current degree; otherwise loading raises ValueError. Saving the loaded graph writes the same file up to those keys. A component class that is not registered makes loading raise KeyError, and a graph without nodes cannot be saved (NameError). Building from the extracted information without a file shares the parameter lists with the original graph.", "quantifier": "every graph with library components, any number of nodes and parallel edges", "why_tests_cant": "Round trip over all graph shapes, more than a thousand components, duplicate component classes and parallel edges.", "anchors": ["lib/minimal_save.py:extract_minimal_graph_info", "lib/minimal_save.py:build_from_minimal_graph_info"]}
{"id": "C15", "title": "Parameter vector round trip and alignment", "statement": "Reading the free-parameter vector and writing it back changes nothing; writing a vector of the right length and reading it back returns that vector; locked parameters, parameters of locked components and every other component field never change; entry i of the values, lower bounds, upper bounds, models and indices always refer to the same parameter. This holds when no component object is shared between two locations and fails if one is.", "quantifier": "every graph, every lock pattern, every vector", "why_tests_cant": "All lock patterns and sharing patterns.", "anchors": ["lib/graph.py:extract_parameters_to_list", "lib/graph.py:extract_attributes_to_list_experimental", "lib/graph.py:distribute_parameters_from_list"]}
{"id": "C16", "title": "Random parameter sampling respects bounds", "statement": "Every value drawn for an unlocked parameter by sample_parameters is inside the closed interval of its bounds, provided the interval end points are multiples of the step when a step is given; locked parameters never change. Without that proviso a rounded sample can leave the interval. Requesting the triangular distribution raises for every graph with at least one unlocked parameter.", "quantifier": "every bound pair, step and random draw", "why_tests_cant": "The rounding violation needs particular draws and bounds.", "anchors": ["lib/graph.py:sample_parameters", "lib/graph.py:uniform_sample", "lib/graph.py:triangle_sample", "lib/graph.py:sample_parameters_callable"]}
{"id": "C17", "title": "Propagation computes the data-flow solution independently of the visiting order", "statement": "For every acyclic graph and every valid topological order, propagate assigns to each edge and each terminal exactly the state determined by the equations: output of an edge = what its component makes of the port of its source node, inputs of a node = states of its incoming edges in edge order. A solution of the equations exists exactly when propagate succeeds and it is unique, so the result does not depend on the topological order chosen, and states saved earlier never leak into it. For the components of the library this holds with noise too, with respect to the noise vectors in place after the run.", "quantifier": "every acyclic graph, every component behaviour, every valid topological order, every prior saved state", "why_tests_cant": "All orders of all graphs; tests see the single order networkx happens to produce.", "anchors": ["lib/graph.py:propagate", "lib/graph.py:get_in_edges", "lib/graph.py:get_out_edges", "lib/graph.py:propagation_order"]}
{"id": "C18", "title": "Which places can be measured after propagation", "statement": "After a successful propagate, measure_propagator succeeds exactly for the edges and for the nodes without outgoing edges, and raises KeyError for every other node; in consequence inspect_state, which measures every node, raises on every graph that has an edge, and a terminal fed by several edges reports only the first of them.", "quantifier": "every graph", "why_tests_cant": "A universally quantified failure statement about a public method.", "anchors": ["lib/graph.py:measure_propagator", "lib/graph.py:propagate", "lib/graph.py:inspect_state", "simulator/fiber/node_types_subclasses/terminals.py"]}
{"id": "C19", "title": "The global noise switch is restored unless propagation raises", "statement": "get_output_signal, get_output_signal_pure and get_output_noise leave the process-wide noise switch as they found it whenever they return (and also when only the measurement fails); if the propagation inside raises, the switch is left at the forced value (on for the noisy, off for the pure signal), silently changing later simulations. The signal-to-noise evaluator leaves it switched on when it returns, whatever it was, and off when its first propagation raises.", "quantifier": "every graph, every prior switch value, every failure point", "why_tests_cant": "Depends on history of a global variable and on exceptions.", "anchors": ["lib/graph.py:get_output_signal", "lib/graph.py:get_output_signal_pure", "lib/graph.py:get_output_noise", "simulator/fiber/evaluator_subclasses/evaluator_snr.py:SignalNoiseRatio.evaluate_graph"]}
{"id": "C20", "title": "Noise-free simulation is deterministic; noisy simulation is repeatable on one propagator", "statement": "get_output_signal_pure does not depend on any random draw, on the generator or on the state of any noise model, and changes none of them; after a successful get_output_signal, every later one on the same propagator object returns the same signal with the same noise vectors, whatever noise-free runs, runs on that propagator, switch changes and other uses of the generator come between (but not after a run on another propagator). Switching every noise model off makes the noisy signal equal the pure one on every graph without phase modulators, and not in general on graphs with one: their phase noise is applied regardless. resample_all_noise raises on every graph with an edge and resamples nothing.", "quantifier": "every sequence of simulate/resample/change-propagator calls and every random stream", "why_tests_cant": "Requires quantifying over random streams and call histories.", "anchors": ["simulator/fiber/assets/additive_noise.py:AdditiveNoise"]}
{"id": "C21", "title": "Layout terminates exactly when one node has no input, and then rows are longest distances", "statement": "For every acyclic graph, whatever order Python iterates sets in and whatever random numbers are drawn: optical_system_layout returns exactly when exactly one node has no incoming edge. It then gives every node (and nothing else) one position, in the row whose number is the length of the longest path from that node, so every edge points to a strictly later row, and needs at most one round per node more than one. With two or more nodes without incoming edges it loops forever; on an empty graph it raises IndexError, on a cyclic one networkx's unfeasible error. No sequence of evolution operators changes whether the layout of a graph ends.", "quantifier": "every graph, every iteration order of sets, every random number sequence, every evolution run", "why_tests_cant": "Non-termination cannot be observed by a finite test, and the row numbers must be right for every graph.", "anchors": ["lib/graph.py:optical_system_layout"]}
{"id": "C22", "title": "Hall of fame stays sorted, of fixed size, and only contains evaluated graphs", "statement": "Along any sequence of update_hof calls that return, starting from init_hof(n): the hall of fame keeps exactly n slots, its scored entries come first and no later entry scores strictly better than an earlier one (NaN scores included), all remaining slots are empty, and each entry is a score/graph pair that one of the presented populations contained.", "quantifier": "every sequence of populations, every similarity function and threshold", "why_tests_cant": "Unbounded histories and arbitrary similarity outcomes.", "anchors": ["algorithms/topology_optimization.py:update_hof", "algorithms/topology_optimization.py:init_hof"]}
{"id": "C23", "title": "The best entry of the hall of fame is the best score ever seen", "statement": "If the hall of fame has at least one slot and no presented score is NaN, then after any sequence of updates its first entry is one of the presented individuals and no presented individual scored strictly better; in particular the best score never gets worse. The restriction is needed: once an individual with a NaN score is in first place it stays there for ever, whatever is presented later.", "quantifier": "every sequence of populations and similarity function", "why_tests_cant": "Similarity-driven insertion and deletion could drop the best in rare combinations.", "anchors": ["algorithms/topology_optimization.py:update_hof"]}
{"id": "C24", "title": "The hall of fame holds the best graph of each of the best kinds", "statement": "If 'similar' (distance at most, or numerically close to, the threshold) is symmetric and transitive, the distance is always defined and no score is NaN, then after any sequence of updates an n-slot hall of fame is exactly the first n of all champions ordered by score and then by time of presentation, where a champion is the best graph of its kind seen so far (the earliest among equally good ones); hence it never contains two similar graphs. For arbitrary similarity a graph is never admitted behind one similar to it; but diversity fails for a symmetric, reflexive, non-transitive similarity such as a thresholded distance: a newcomer similar to two members replaces only the first.", "quantifier": "every update history, hall of fame size, score sequence and similarity function; existence of a counterexample for non-transitive similarity", "why_tests_cant": "Needs similarity outcomes that no test constructs.", "anchors": ["algorithms/topology_optimization.py:update_hof", "algorithms/assets/graph_edit_distance.py"]}
{"id": "C25", "title": "Population updates: offspring, elites and selection pressure", "statement": "The roulette and tournament updates return exactly as many unscored offspring as there were individuals, followed by the elites (elitism ratio times population size, to the nearest integer, from the front of the population), and never modify any graph that existed before. A tournament offspring descends from the best-ranked contestant, so on a sorted population its parent scores no worse than any other contestant; there are always between one and population-size contestants. With scores of one sign a roulette parent is drawn with probability proportional to its reciprocal score: for positive scores the lower of two scores has the larger chance, for negative scores the worse one does; a zero score or mixed signs make the update raise. The random update evolves the same graph objects in place, until each is acyclic and has a free parameter, drops their scores, and appends fresh copies of the elites as they were before.", "quantifier": "every population, scores, elitism ratio, evolver behaviour and draw", "why_tests_cant": "All draws and all population sizes including those smaller than the divisor.", "anchors": ["algorithms/topology_optimization.py:update_population_topology_tournament", "algorithms/topology_optimization.py:update_population_topology_roulette", "algorithms/topology_optimization.py:update_population_topology_random"]}
{"id": "C26", "title": "Requesting elitism aborts the optimisation", "statement": "A topology optimisation (without speciation) completes a generation only if no elite is carried over: whenever the product of elitism ratio and population size exceeds one half, i.e. rounds to at least one, no run with at least one generation returns; the already scored elite raises a RuntimeError when it is re-optimised after the offspring. At a product between zero and one half no elite is carried over by any update rule.", "quantifier": "every initial graph, update rule, ratio, population size, evolver, optimiser and draw", "why_tests_cant": "Full optimisation runs need a cluster; elitism is only used in benchmark scripts.", "anchors": ["algorithms/topology_optimization.py:topology_optimization", "algorithms/topology_optimization.py:parameters_optimize_complete", "algorithms/topology_optimization.py:update_population_topology_tournament"]}
{"id": "C27", "title": "Outer optimisation loop invariants", "statement": "If a run of topology_optimization (without speciation) returns, then it saved one population and logged one row per generation; each population has at least one and at most the configured number of individuals and, unless a score is NaN, consists of the best individuals of that generation in order of score; every individual carries the score and graph its own parameter optimisation returned. The logged best score of a generation is the minimum of all scores evaluated so far, and the returned hall of fame is the result of presenting all evaluated individuals in order, its first score the minimum of all. A run with exactly one generation raises a division by zero once the start graph is optimised. Under every rule but the preferential one, starting from a graph in use and with parameter optimisation that only sets parameters within bounds, every evaluated graph is acyclic, well-typed, with in-bounds parameters.", "quantifier": "every evolver, optimiser and evaluator behaviour, every number of generations and every draw", "why_tests_cant": "Unbounded runs with arbitrary component behaviour.", "anchors": ["algorithms/topology_optimization.py:topology_optimization"]}
{"id": "C28", "title": "Speciation partitions the population", "statement": "After speciate returns, every individual is assigned to exactly one existing species whose representative is itself or lies closer than the threshold; recorded species sizes equal the number of assigned population members, are positive and sum to the population size; every representative is a member of the current population and of its own species; and no two representatives lie closer than the threshold (measured from the earlier to the later).", "quantifier": "every population, prior species state, distance function, iteration order of sets", "why_tests_cant": "Arbitrary previous species state and set iteration orders.", "anchors": ["algorithms/speciation.py:Speciation.speciate"]}
{"id": "C29", "title": "Fitness sharing is undone exactly by its reversal", "statement": "On a speciated population execute_fitness_sharing multiplies every score by the number of members of its species (weakened by the protection half life, but never below one). Calling reverse_fitness_sharing with the same generation afterwards returns the original scores, for every protection half life, and truncating or reordering the population in between does not affect the surviving scores. If speciate is run again in between this is no longer true.", "quantifier": "every population, species sizes, generation and half life", "why_tests_cant": "Real-valued identity over all species sizes and generations.", "anchors": ["algorithms/speciation.py:Speciation.execute_fitness_sharing", "algorithms/speciation.py:Speciation.reverse_fitness_sharing"]}
{"id": "C30", "title": "The species threshold stays strictly inside the unit interval", "statement": "After construction and any number of speciate calls the distance threshold is in (0,1), and after the first adaptive update in [0.05,0.95]; with no target number of species it never changes. An update raises it (or leaves it at 0.95) when there are more species than the target, lowers it (or leaves it at 0.05) when there are fewer, and keeps it otherwise.", "quantifier": "every history of populations", "why_tests_cant": "Unbounded history of updates.", "anchors": ["algorithms/speciation.py:Speciation.__init__", "algorithms/speciation.py:Speciation.speciate"]}
{"id": "C31", "title": "Distance functions used for speciation", "statement": "The subpopulation distance is symmetric, 0 exactly on equal labels and 1 otherwise, and raises on other descriptors; the edit distance is 0 exactly when the similarity does not exceed its threshold. The composition distance is symmetric and zero exactly when both graphs contain each component class equally often. It is claimed to lie in [0,1] but there are graphs for which it exceeds 1; it raises KeyError for every graph containing a terminal because terminals are missing from its basis, so speciating any first population of two or more different graphs with terminals by composition fails.", "quantifier": "all pairs of graphs", "why_tests_cant": "Range claims over all graph pairs.", "anchors": ["algorithms/speciation.py:vectorDIFF", "algorithms/speciation.py:SimpleSubpopulationSchemeDist"]}
{"id": "C32", "title": "Genetic parameter search never loses its best and reports a true score", "statement": "For an objective that is never NaN the genetic algorithm keeps its population at the configured size, its best score never increases between generations, the returned score is the objective at the returned vector, and it is never worse than the objective at the starting vector. With a NaN score the search can keep the NaN start although it evaluated candidates with proper scores.", "quantifier": "every objective, start vector of the right length, generator and random draw, every number of generations; existence for NaN", "why_tests_cant": "Stochastic algorithm over unbounded generations.", "anchors": ["algorithms/parameter_optimization.py:parameters_genetic_algorithm"]}
{"id": "C33", "title": "Crossover and mutation only recombine existing genes", "statement": "Every coordinate of each crossover child is the same coordinate of one of the two parents, both children together contain exactly the parents' genes at each coordinate, and each mutated coordinate comes from the parent or the mutant at that coordinate, with at least one from the mutant. Hence with in-bounds start and samples every candidate ever evaluated by the genetic search is within bounds.", "quantifier": "every vector, cut point, index set", "why_tests_cant": "All cut points and lengths, including the length-one fallback.", "anchors": ["algorithms/parameter_optimization.py:crossover_singlepoint", "algorithms/parameter_optimization.py:crossover_doublepoint", "algorithms/parameter_optimization.py:mutation", "algorithms/parameter_optimization.py:parameters_genetic_algorithm"]}
{"id": "C34", "title": "Bounded Adam returns a point inside the bounds", "statement": "With at least one iteration every coordinate of the returned vector is inside the closed bounds (by 1e-8 of their width) or NaN, for every gradient function, start point and step settings; with finite gradients, a finite start, decay rates in [0,1) and positive epsilon it returns and no coordinate is NaN. Apart from the start the gradient is only asked for inside the bounds. With zero iterations the start vector is returned unchanged, even if it is out of bounds. A NaN gradient gives a NaN result.", "quantifier": "every gradient function, start vector, number of iterations", "why_tests_cant": "Arbitrary gradients and iteration counts.", "anchors": ["algorithms/parameter_optimization.py:adam_bounded"]}
{"id": "C35", "title": "Reported score, returned vector and graph state agree after parameter optimisation", "statement": "For every supported method that returns, the returned score equals the score of the graph as it then is, the graph holds exactly the returned vector in its free parameters, and nothing but free parameters has changed; an unknown method name raises when there is at least one free parameter; a graph without free parameters is returned unchanged with its own score, whatever the method name. For the particle-swarm method alone the score agrees only if the external optimiser reports the objective at its own optimum.", "quantifier": "every graph without shared component objects, deterministic objective, method, start vector of the right length and external optimiser behaviour", "why_tests_cant": "External optimisers are arbitrary; property is about the plumbing for all their results.", "anchors": ["algorithms/parameter_optimization.py:parameters_optimize"]}
{"id": "C36", "title": "Optimisation log rows", "statement": "While an algorithm with n scores per generation is being logged, row r (after the offset) holds its name, the generation number, and the minimum, maximum of exactly the scores of generation r seen so far, provided none is NaN, and the mean column times n is their sum; all other rows are kept. Two algorithms get consecutive rows if the first stops at the end of a generation. A third algorithm overwrites earlier rows, as does a second one after an unfinished generation; the mean of an unfinished generation counts missing scores as zero; a NaN score hides smaller scores before it. Logging without an algorithm, a started clock or a non-empty population raises.", "quantifier": "every sequence of logged scores and population sizes; existence for the overwrites", "why_tests_cant": "History dependent.", "anchors": ["algorithms/functions.py:ParameterOptimizationLogger"]}
{"id": "C37", "title": "Variable power splitter shares form a partition of unity", "statement": "The power weights computed from any real parameter vector sum to one. For parameters in [0,1], one fewer than the outputs, every call gives one field per output, and at every sample output j carries share_j of the total emitted power: output j takes the fraction 1-a_j of what the earlier outputs left over and the last output takes the rest; shares are between zero and one and sum to one. The default parameters give each of the N outputs exactly 1/N of the power, for every N.", "quantifier": "every number of outputs and parameter vector", "why_tests_cant": "All real parameter vectors and all port counts.", "anchors": ["simulator/fiber/node_types_subclasses/multi_path.py:VariablePowerSplitter"]}
{"id": "C38", "title": "Power balance of the splitter", "statement": "At every sample the total output power of the splitter is |sum of the inputs with phases -2 pi i/inputs|^2 divided by the number of outputs. So with a single input it is the input power divided by the number of outputs (an N-way split loses the factor N). With several inputs it is at most (inputs/outputs) times the total input power, and the bound is attained for every port count: a two-input one-output combiner emits twice the power it receives, so the component is not passive. With at least one parameter and a number of outputs that is neither one nor the parameter count plus one, the call raises ValueError.", "quantifier": "every input field, parameter vector and port count", "why_tests_cant": "Quantifies over all complex fields.", "anchors": ["simulator/fiber/node_types_subclasses/multi_path.py:VariablePowerSplitter.propagate"]}
{"id": "C39", "title": "Passive single-path components never amplify", "statement": "Sample by sample and for every field: an attenuation of a dB multiplies the power by 10^(a/10) (never more than one in the allowed range) and attenuations compose additively in dB; phase modulator (with any noise) and phase shifter leave the power unchanged, the phase shifter being exactly the multiplication by exp(i phase); the intensity modulator multiplies the power by 10^(-0.4) cos^2((depth cos(2 pi f t) + bias)/2).", "quantifier": "every field, grid of at least two samples and parameter value", "why_tests_cant": "All complex inputs.", "anchors": ["simulator/fiber/node_types_subclasses/single_path.py"]}
{"id": "C40", "title": "Frequency-domain components conserve or reduce energy", "statement": "For every number of samples the simulator's forward and inverse transforms are inverse to each other in both orders and satisfy Parseval's identity. A mask between them whose squared modulus lies in [lo, hi] changes the energy by a factor in [lo, hi]. Hence fibre and delay lines keep the energy exactly, the wave shaper keeps it between lo^2 and one times the fixed loss of 10^(-0.45) when its amplitudes lie in [lo,1], and the square filter never increases it. At bandwidth 0.0, the lower bound of its own parameter, the square filter raises ZeroDivisionError.", "quantifier": "every sample count, every field, every mask", "why_tests_cant": "All lengths and all fields: requires Parseval's theorem.", "anchors": ["simulator/fiber/assets/functions.py:fft_", "simulator/fiber/assets/functions.py:ifft_", "simulator/fiber/node_types_subclasses/single_path.py:DispersiveFiber", "simulator/fiber/node_types_subclasses/single_path.py:DelayLine", "simulator/fiber/node_types_subclasses/single_path.py:WaveShaper", "simulator/fiber/node_types_subclasses/single_path.py:SquareFilter"]}
{"id": "C41", "title": "Saturation of detector and amplifier", "statement": "The photocurrent is at least zero, strictly below its configured maximum, at most responsivity times power, and strictly increasing in the optical power. The amplifier never raises the energy by more than the small-signal gain. Its mean output power never exceeds the configured maximum when the saturation exponent alpha is at least one (its default); for every exponent in [0,1), which the parameter's bounds allow, the output power of a flat-gain amplifier is unbounded, so the configured maximum is not a bound there.", "quantifier": "every non-negative input power, every field and grid, every parameter value in the stated ranges", "why_tests_cant": "Real-analytic inequality for all inputs.", "anchors": ["simulator/fiber/node_types_subclasses/outputs.py:Photodiode", "simulator/fiber/node_types_subclasses/single_path.py:OpticalAmplifier"]}
{"id": "C42", "title": "Wave shaper mask has the length of the signal", "statement": "Let n be the whole number of samples per bin. If bins*n is at most the number of samples, or larger by an even number, the wave shaper succeeds and returns as many samples as it received. If it is larger by an odd number, the mask is one entry short and the call raises ValueError, for every grid of at least three samples; with two samples the one-entry mask is silently broadcast.", "quantifier": "every sample count, bin count and bin width", "why_tests_cant": "Integer rounding over all sizes.", "anchors": ["simulator/fiber/node_types_subclasses/single_path.py:WaveShaper.propagate"]}
{"id": "C43", "title": "Sensitivity scores per component", "statement": "Every edge of the graph receives exactly one score; an edge's score is the mean of the scores of its own free parameters and 1 when it has none; the parameter score is the mean absolute value of the Hessian row and column of that parameter, so it is non-negative and zero exactly when the parameter does not couple to any. If the graph has no free parameter every edge scores 1.", "quantifier": "every graph, lock pattern and square Hessian matrix of matching size", "why_tests_cant": "Index alignment over all graphs.", "anchors": ["simulator/fiber/assets/hessian_graph_analysis.py"]}
{"id": "C44", "title": "Random starting graphs cannot be made by the Hessian evolver", "statement": "Calling random_graph of the Hessian-based evolver on any graph that has no stored Hessian (every newly built graph), has at least one free parameter and offers at least one mutation raises ValueError in the first step and leaves graph, parameters and identifiers unchanged, whereas the default evolver can evolve the same graph.", "quantifier": "every graph, operator list containing removal, every number of steps >= 1 and all random draws", "why_tests_cant": "A test shows the exception for one graph; the claim covers all graphs and draws.", "anchors": ["simulator/fiber/evolver.py:HessianProbabilityEvolver.random_graph", "simulator/fiber/assets/hessian_graph_analysis.py:get_all_edge_scores", "lib/graph.py:init_graph"]}
{"id": "C45", "title": "Every mutation resets all splitter ratios and nothing else", "statement": "A successful evolve_graph call leaves every connector of the evolved graph with the equal-split parameters for its current number of outputs, also connectors the mutation did not touch, so tuned split ratios are lost; every other surviving component keeps its object, bounds and parameter values, and component objects stay distinct.", "quantifier": "every sound graph, library, operator and draw", "why_tests_cant": "The effect on untouched connectors depends on the entire graph and on all mutations.", "anchors": ["simulator/fiber/evolver.py:ProbabilityLookupEvolver.evolve_graph", "lib/graph.py:update_graph", "simulator/fiber/node_types_subclasses/multi_path.py:VariablePowerSplitter.update_attributes"]}
{"id": "C46", "title": "Graphs stay healthy through any session", "statement": "A graph built from well-typed node and edge dictionaries with pairwise distinct component objects can be built without error and is acyclic, well-typed, with readable, in-bounds, sampleable and unshared parameters. This remains true after any sequence of evolve_graph calls, random parameter samplings, in-bounds parameter writes, update_graph calls and Hessian updates, and the resulting structure is reached from the initial one only by offered mutations.", "quantifier": "every start graph, every finite sequence of calls and draws", "why_tests_cant": "Sequences are unbounded and interleavings of evolution and parameter changes cannot be enumerated.", "anchors": ["lib/graph.py:init_graph", "lib/graph.py:sample_parameters", "lib/graph.py:distribute_parameters_from_list", "simulator/fiber/evolver.py:ProbabilityLookupEvolver.evolve_graph"]}
{"id": "C47", "title": "Which graphs can be simulated, and evolution never changes it", "statement": "When the component transfer functions themselves do not raise, propagate on a graph whose components have their parameters succeeds exactly when each terminal has at most max(1, inputs) outgoing connections, each power splitter has an input, only terminals and splitters are on nodes and no splitter is on an edge. For a graph reached from a well-typed start by any session this means: if no start terminal of the initial graph has two outgoing connections then propagate, get_output_signal, get_output_signal_pure and get_output_noise succeed at every measurable place after any history of simulation, switch, resampling and noise-model calls; otherwise propagate raises IndexError, and no evolution can repair it.", "quantifier": "every start graph, evolution session, call history, propagator, input signal and random stream", "why_tests_cant": "Graphs reachable by evolution and the call histories on them are unbounded.", "anchors": ["lib/graph.py:propagate", "lib/graph.py:get_output_signal", "simulator/fiber/node_types_subclasses/multi_path.py", "simulator/fiber/node_types_subclasses/terminals.py"]}
{"id": "C48", "title": "Preferential update imposes the parent's parameters on all offspring but the last", "statement": "The preferential update leaves every parent unmodified and returns, for each parent in turn, a litter of at least one unscored offspring, followed by the elites. The last offspring of a litter is exactly what one evolution makes of the parent; every other one is that with the parent's free-parameter vector written over its own position by position (as far as the shorter of the two reaches), whatever parameters those positions stand for. Hence offspring of parents that respect all bounds may violate their own.", "quantifier": "every population of graphs in use, every evolver, ratio and draw; existence of an offspring outside its bounds", "why_tests_cant": "The mismatch shows only after structural mutations followed by further rounds of a random loop; tests never run this update rule.", "anchors": ["algorithms/topology_optimization.py:update_population_topology_preferential"]}
{"id": "C49", "title": "Crossover candidates are the other members of the species", "statement": "For a graph of a speciated population, get_crossover_candidates returns exactly the other members of its species among the given scored individuals, best score first. For a graph that was not speciated, or when any of the given individuals was not speciated, it returns an empty list.", "quantifier": "every speciated population, graph and list of individuals", "why_tests_cant": "All populations and species assignments, including ones with stale individuals.", "anchors": ["algorithms/speciation.py:Speciation.get_crossover_candidates"]}
{"id": "C50", "title": "Logging does not change the optimisation", "statement": "Calling the parameter optimisation with log_callback gives the same result or exception and leaves the same parameters in the graph as calling it without, for every method but CHEAP and CMA and non-empty populations. With log_callback CMA always raises TypeError if there is a free parameter, and CHEAP raises TypeError once its optimiser asks for a first score that can be computed.", "quantifier": "every graph, objective, start vector, method, external optimiser behaviour and random draw", "why_tests_cant": "The equality is between two runs for all optimiser behaviours and all lengths of the search.", "anchors": ["algorithms/parameter_optimization.py:parameters_optimize", "algorithms/functions.py:ParameterOptimizationLogger"]}
{"id": "C51", "title": "Fibres, delays and phases add up", "statement": "Two fibres in sequence act exactly like one fibre of the summed length, two delay lines like one of the summed delay, two phase shifters like one of the summed phase; length zero and delay zero return the field unchanged. So a length and its opposite cancel.", "quantifier": "every field, grid of at least two samples and parameter values", "why_tests_cant": "Equality of fields for all real parameters and all sample counts; it needs the inversion theorem of the transform.", "anchors": ["simulator/fiber/node_types_subclasses/single_path.py:DispersiveFiber.propagate", "simulator/fiber/node_types_subclasses/single_path.py:DelayLine.propagate", "simulator/fiber/node_types_subclasses/single_path.py:PhaseShifter.propagate"]}
{"id": "C52", "title": "A delay line shifts the field towards earlier samples", "statement": "If delay*N*df is the whole number m, the delay line returns the field moved by m samples towards the start of the window, around its ends, times one constant of modulus one. The m samples amount to delay*(N/(N-1))^2 of time. So the line advances rather than delays, cyclically, and by slightly more than its parameter. The integrated delay line does the same with its delay taken in picoseconds.", "quantifier": "every field, grid and whole-sample delay", "why_tests_cant": "Quantifies over all fields, grids and delays.", "anchors": ["simulator/fiber/node_types_subclasses/single_path.py:DelayLine.propagate", "simulator/fiber/assets/propagator.py"]}
{"id": "C53", "title": "Frequency grid of the propagator", "statement": "The frequency grid contains zero exactly when the number of samples is odd; for even numbers the constant part of a field is treated as if at half a frequency step. The step is (N/(N-1))^2 times the step 1/(N dt) of the transform, for every N.", "quantifier": "every number of samples from two on and every positive window", "why_tests_cant": "All sample counts and windows.", "anchors": ["simulator/fiber/assets/propagator.py:Propagator._generate_time_frequency_arrays"]}
{"id": "C54", "title": "Sources emit what their parameters say", "statement": "The continuous-wave laser emits its peak power at every sample. The pulsed laser never emits more than its peak power, emits it wherever the time is a whole multiple of the repetition time, and repeats exactly with that time (Gaussian and sech pulses). The impulse has one non-zero sample, of size 1/dt, at index N - floor(N/2): one sample (odd N) or half a sample (even N) after time zero.", "quantifier": "every grid, power, width and repetition time", "why_tests_cant": "All grids and real parameters.", "anchors": ["simulator/fiber/node_types_subclasses/inputs.py"]}
{"id": "C55", "title": "Gain of the lowpass and bandpass filters", "statement": "Filtering a signal with the Butterworth lowpass of any order n >= 1 multiplies the power at every grid frequency f by exactly gain^2 / (1 + (f/f0)^(2n)): half of the power at the corner f0 for every order, never more energy than gain^2 times the input's. The exponential-of-square filter (width positive and below twice the wavelength) multiplies the field at every grid frequency by 2^(-4 d^2), where d is the distance of the optical frequency from that of the given wavelength in units of the given width in frequency: by one exactly there, by one half at half the width, and it never adds energy. A negative order raises ValueError, order zero IndexError, and the shapes gaussian, longpass, shortpass, bandpass and any unknown name raise ValueError.", "quantifier": "every order, corner frequency, gain, grid of two or more samples and signal", "why_tests_cant": "The power law holds for infinitely many orders and real frequencies; it needs the factorisation of 1 + x^(2n).", "anchors": ["simulator/fiber/assets/filter.py:Filter.get_filtered_time", "simulator/fiber/assets/filter.py:Filter.get_filter", "simulator/fiber/assets/filter.py:Filter._butterworth_polynomial"]}
{"id": "C56", "title": "Voltage of the photodiode", "statement": "For every input light the photodiode returns a voltage signal of the same length whose mean square is at most (maximal photocurrent times load resistance)^2. With an odd number of samples the voltage is real for every input. With an even number of samples and filter order one or two (two is the default), every non-zero constant light already gives a voltage with a non-zero imaginary part at every sample.", "quantifier": "every input field, positive device parameters, filter order and grid", "why_tests_cant": "All fields, sample counts and real parameters.", "anchors": ["simulator/fiber/node_types_subclasses/outputs.py:Photodiode.propagate", "simulator/fiber/assets/filter.py:Filter.get_filtered_time", "simulator/fiber/assets/propagator.py:Propagator._generate_time_frequency_arrays"]}
{"id": "C57", "title": "Reusing a filter object", "statement": "A filter object used any number of times, with any sequence of propagators whose grids do not change, returns at every call what a fresh filter would return. If the number of samples of a propagator is changed in place between two calls with it, the second call raises ValueError although a fresh filter would succeed.", "quantifier": "every filter shape, sequence of calls, propagators and signals", "why_tests_cant": "All call sequences.", "anchors": ["simulator/fiber/assets/filter.py:Filter.get_filtered_freq", "simulator/fiber/assets/filter.py:Filter.filter", "simulator/fiber/assets/propagator.py:Propagator.n_samples"]}
{"id": "C58", "title": "Power of the added noise", "statement": "Whatever numbers were drawn, as long as they are not all zero: noise of type 'osnr' added to a non-zero signal has a mean power of exactly the signal's divided by 10^(dB/10), and get_OSNR of signal and noise returns dB; a laser's light keeps its power at every sample before such noise is added. Noise of type 'absolute power' has exactly that mean power and of type 'rms' exactly that root mean square, also after a Butterworth filter, and is added as it is. Shot noise has mean power (slope times mean modulus of the signal plus intercept) times the full bandwidth.", "quantifier": "every draw, signal, parameter and grid", "why_tests_cant": "All random draws and real parameters; tests sample a few seeds with tolerances.", "anchors": ["simulator/fiber/assets/additive_noise.py:AdditiveNoise.add_noise_to_propagation", "simulator/fiber/assets/additive_noise.py:AdditiveNoise._get_noise_vector", "simulator/fiber/assets/additive_noise.py:AdditiveNoise.get_OSNR"]}
{"id": "C59", "title": "Phase noise of a linewidth", "statement": "With an even number of samples, noise of type 'FWHM linewidth' leaves the power of every sample of the signal unchanged for every draw; a linewidth of zero leaves the signal unchanged. With an odd number of samples the noise vector of every non-zero linewidth (also of type 'phase noise from linewidth') contains no numbers, because the zero frequency is divided by.", "quantifier": "every draw, linewidth, signal and grid", "why_tests_cant": "All random draws, linewidths and sample counts.", "anchors": ["simulator/fiber/assets/additive_noise.py:AdditiveNoise._get_noise_vector", "simulator/fiber/assets/additive_noise.py:AdditiveNoise.add_noise_to_propagation"]}
{"id": "C60", "title": "Order of noise sources", "statement": "With the same noise vectors, adding the noise sources of a component to a signal gives the same result in every order of the sources.", "quantifier": "every list of sources of any types, permutation of it and signal", "why_tests_cant": "All lists and permutations.", "anchors": ["simulator/fiber/assets/additive_noise.py:AdditiveNoise.add_noise_to_propagation", "simulator/fiber/assets/additive_noise.py:AdditiveNoise.add_noise_source"]}
{"id": "C61", "title": "Gain of the programmable filter", "statement": "With amplitude coefficients between 0 and 1 and a frequency step below the 5 THz band, the programmable filter gives a field of the same length whose energy is at most 10^-0.45 r^18 times that of the input, where r = max(1, window * 2.5 THz / h) and h is the whole number nearest to half of the band in frequency steps. With at least 50 samples and a step of at most a fortieth of the band it never amplifies. With equal coefficients every component inside the band is multiplied by the same amplitude and phase, the components outside are removed. On coarse grids parameters inside the bounds can amplify a field.", "quantifier": "every grid, field and coefficients", "why_tests_cant": "Infinitely many grids, fields and coefficients; amplification needs the right grid.", "anchors": ["simulator/fiber/node_types_subclasses/single_path.py:ProgrammableFilter.propagate", "simulator/fiber/node_types_subclasses/single_path.py:ProgrammableFilter.get_waveform", "simulator/fiber/node_types_subclasses/single_path.py:ProgrammableFilter.bernstein"]}
{"id": "C62", "title": "Split-and-delay line", "statement": "The integrated split-and-delay line gives a field of the same length with at most 10^0.1 times the energy of the input, for all coupling ratios. With all ratios zero the output is exactly 10^0.05 times the input, and crossing at coupler k and back at the next gives the input delayed by 2^k ps with this factor and a minus sign. So it is not passive: inside the bounds of its parameters it amplifies every non-zero field, because the loss of 1 dB has the wrong sign.", "quantifier": "every grid, field and ratios", "why_tests_cant": "Infinitely many fields and ratios.", "anchors": ["simulator/fiber/node_types_subclasses/single_path.py:IntegratedSplitAndDelayLine.propagate"]}
{"id": "C63", "title": "Frequency splitter", "statement": "Given fields of the grid's length, the frequency splitter returns one field per parameter plus one, none with more energy than the plain sum of the inputs, and with at most two outputs not more in total. Output j carries the components of this sum between the sums of the first j and j+1 shares of the parameters, with soft edges. No inputs, or inputs of different lengths, raise ValueError. It is not passive: two equal inputs can leave with more energy than they bring.", "quantifier": "every grid, parameters and inputs", "why_tests_cant": "All lists of inputs and parameters.", "anchors": ["simulator/fiber/node_types_subclasses/multi_path.py:FrequencySplitter.propagate"]}
{"id": "C64", "title": "Noisy signal", "statement": "For the shapes 'gaussian', 'sech', 'sinc' and 'sinc-chirped' the noisy signal has the grid's length, no sample above the peak power, and exactly the peak power at time zero; the Gaussian has half of it at half of the pulse width from there. Every other shape raises RuntimeError.", "quantifier": "every width, power, shape and grid", "why_tests_cant": "All widths, powers and grids.", "anchors": ["simulator/fiber/node_types_subclasses/inputs.py:NoisySignal.propagate", "simulator/fiber/node_types_subclasses/inputs.py:NoisySignal.get_pulse_train"]}
{"id": "C65", "title": "Which simulations succeed", "statement": "Whatever a session does to a graph built from a valid description (evolve, sample, write values within the bounds, update), every component keeps as many parameters as its class declares, locked ones at their defaults, the others numbers within the bounds, and every splitter has one ratio in [0,1] less than outputs. Propagating such a graph without noise, with an initial field of the grid's length, succeeds exactly if no start of the graph feeds two connections, no square filter has width zero, and (when a wave shaper is present) its 15 bins fit the grid or overlap it evenly. Then every stored field has the grid's length. Staying within the bounds is not enough: the lower bound of the square filter's width is zero, and at it the propagation raises.", "quantifier": "every graph, session, grid and initial field", "why_tests_cant": "All graphs, parameter values and histories of evolution, all grids.", "anchors": ["lib/graph.py:Graph.propagate", "lib/graph.py:Graph.update_graph", "simulator/fiber/node_types_subclasses/single_path.py", "simulator/fiber/node_types_subclasses/multi_path.py", "simulator/fiber/node_types_subclasses/outputs.py"]}
{"id": "C66", "title": "Strength of fields in a graph", "statement": "Call the square root of a field's energy its strength. If K is at least the product of the gains along every route from the sources (10^(G/20) for an amplifier of G dB, 10^(1/20) for a split-and-delay line, the number of outputs for a frequency splitter, 1 for every other component), then after a noise-free propagation the strengths received by all detectors together are at most K times the strengths emitted by the sources together, and so are the strengths of the fields that arrive at any inner node together, hence every stored field. Without amplifiers, split-and-delay lines and frequency splitters K is 1. Wave shapers need more than two samples, programmable filters a fine grid.", "quantifier": "every graph, session, parameter values, grid and initial field", "why_tests_cant": "All networks and all routes through them.", "anchors": ["lib/graph.py:Graph.propagate", "simulator/fiber/node_types_subclasses/single_path.py", "simulator/fiber/node_types_subclasses/multi_path.py", "simulator/fiber/node_types_subclasses/outputs.py"]}
{"id": "C67", "title": "Pulse repetition evaluator", "statement": "On a grid of N samples over a window W, for a positive repetition time: at most W/N raises IndexError, above it a score (or nan) is returned. The score of a real field is real and lies between the squared difference and the squared sum of the strengths (root energies) of field and target. If a field repeats every P samples (P at least 2, dividing N), its component at N/P is not zero and the repetition time is P samples, then a cyclic delay does not change its score; if the target's magnitudes repeat like this, all their delays score exactly 0. Without the repetition this fails: a single pulse delayed by one sample scores 2.", "quantifier": "every grid, target, repetition time, field and delay", "why_tests_cant": "All fields, delays and repetition times; tests see a few waveforms in floating point.", "anchors": ["simulator/fiber/evaluator_subclasses/evaluator_pulserep.py"]}
{"id": "C68", "title": "Radio frequency waveform evaluator", "statement": "The named targets are the falling and the rising sawtooth, the triangle and the square wave, sampled at the given frequency and amplitude; another name raises NotImplementedError, something that is neither a name nor an array AttributeError. For a real target of N samples, a positive frequency and a non-zero amplitude: a frequency of at least N/W raises IndexError, a lower one gives a score (or nan). The score is real, and N times the squared amplitude times the score lies between the squared difference and the squared sum of the strengths of field and target. The evaluator is meant to undo a phase error phi at the target's frequency, but turns it into phi (1 + rho) with rho above 1. Hence the delayed target does not always score 0.", "quantifier": "every grid, target, frequency, amplitude and field", "why_tests_cant": "All fields and phases; the wrong sign still gives a plausible score.", "anchors": ["simulator/fiber/evaluator_subclasses/evaluator_rfawg.py"]}
{"id": "C69", "title": "Scores from powers and spectra", "statement": "Filter design: the score is minus the share of the amplitude spectrum that lies in the pass bands, so it is between -1 and 0, -1 exactly if nothing lies outside, unchanged when the field is multiplied by a non-zero number, and nan exactly for a dark field; the bands have 2 pi times the intended spacing (0.2 THz) and width, so the target does not repeat with its free spectral range. Noise suppression: the sum of the squared power differences, 0 exactly for equal powers. NOT gate: the product of the powers over the product of their sums, between 0 and 1, 0 exactly if field and target are nowhere both lit, nan if one is dark. Discrete time lens: never raises for fields of the grid's length and is not negative where defined. Signal to noise: one minus the mean ratio of noisy to clean amplitude, so at most 1, nan if a clean sample is 0; deviations of opposite sign cancel, so a noisy field can score like a clean one.", "quantifier": "every grid, target and measured field", "why_tests_cant": "All fields; the exact zeros and extremes of the scores are statements about all samples.", "anchors": ["simulator/fiber/evaluator_subclasses/evaluator_filter_design.py", "simulator/fiber/evaluator_subclasses/evaluator_noise_suppression.py", "simulator/fiber/evaluator_subclasses/evaluator_notgate.py", "simulator/fiber/evaluator_subclasses/evaluator_discrete_time_lens.py", "simulator/fiber/evaluator_subclasses/evaluator_snr.py"]}
{"id": "C70", "title": "Evaluating a graph", "statement": "Evaluating a graph built from typed components raises exactly if the simulation raises (C65), the evaluation node has outputs or does not exist (KeyError), or scoring the measured field raises; otherwise it is the score of a field with the grid's number of samples. For the pulse repetition evaluator this is spelled out completely. Fields left by earlier simulations have no influence. The function that optimisers call scores the present parameters with every evaluator; the radio frequency evaluator, called alone on a graph that was not simulated, raises KeyError. The NOT gate evaluator uses a node without outputs and raises IndexError if there is none. The lens evaluator raises KeyError if the connection it calls the input does not exist.", "quantifier": "every graph, parameter store, grid, evaluation node and score function", "why_tests_cant": "All graphs and stores.", "anchors": ["simulator/fiber/evaluator_subclasses/evaluator_pulserep.py", "simulator/fiber/evaluator_subclasses/evaluator_rfawg.py", "simulator/fiber/evaluator_subclasses/evaluator_notgate.py", "simulator/fiber/evaluator_subclasses/evaluator_discrete_time_lens.py", "lib/graph.py:Graph.function_wrapper"]}
{"id": "C71", "title": "When a phase sensitivity can be evaluated", "statement": "PhaseSensitivity always raises RuntimeError, and changes nothing, if the graph does not have one and only one phase shifter on its connections. If it gives a score, the score is not positive and every component of the graph holds the values it held before. With a library that offers no phase shifters (such as the default one), a protected phase shifter stays the only one in every evolution. With a library that offers them, evolution can add a second one; an unprotected one can be swapped away; the evaluator then raises. The quantity that is differentiated is the mean of the field that the simulation with that phase saves.", "quantifier": "every graph, parameter store, grid, library and sequence of operators", "why_tests_cant": "All graphs and all evolutions.", "anchors": ["simulator/fiber/evaluator_subclasses/evaluator_phase_sensitivity.py:PhaseSensitivity", "simulator/fiber/evolution_operators/evolution_operators.py", "simulator/fiber/node_types.py"]}
{"id": "C72", "title": "What the phase sensitivity score measures", "statement": "In a graph that can be simulated, has one phase shifter, no amplifier and power meters at the measured end, the mean detected power is a fringe a + b cos x + c sin x of the phase x, with a >= sqrt(b^2 + c^2). PhaseSensitivity therefore has exactly one outcome: minus half the difference of the powers a quarter turn before and after the present phase. It is zero if the light behind the phase shifter comes only through it (a shifter in line, the start graph of scripts/run_phase_sensitivity.py) or if no light gets from it to the measured end. It is never below minus half the largest mean power that sources and gains allow; with one steady laser and components without gain, minus half the power of the laser. All graphs that evolve from a start graph with protected shifter and protected power meters are of this kind as long as they can be simulated and hold no amplifier.", "quantifier": "every graph, parameter store, grid, measured node and session of evolution and parameter changes", "why_tests_cant": "The derivative is compared with an exact formula for all graphs and all phases.", "anchors": ["simulator/fiber/evaluator_subclasses/evaluator_phase_sensitivity.py:PhaseSensitivity", "lib/graph.py:Graph.propagate", "simulator/fiber/node_types_subclasses/single_path.py:PhaseShifter", "scripts/run_phase_sensitivity.py"]}
{"id": "C73", "title": "The second order phase sensitivity depends on object identity", "statement": "SecondOrderDifferentialSensitivity changes the phases of the two components it was constructed with. On a graph that does not hold these very objects, such as a deep copy, its score is zero, and zero is a possible outcome for every such graph with two phase shifters that can be simulated. With the same component given as both, its score is zero on every graph. The quantity it differentiates is the mean square of the real part of the field that the simulation with the two phases saves. Its constructor raises AssertionError unless both components are protected. It always raises RuntimeError if fewer than two phase shifters are on the connections. A score is never positive, and all components of the graph hold the values they held before.", "quantifier": "every graph, parameter store, grid, measured node and pair of components", "why_tests_cant": "All graphs and stores; identity of objects.", "anchors": ["simulator/fiber/evaluator_subclasses/evaluator_phase_sensitivity.py:SecondOrderDifferentialSensitivity", "scripts/run_derivative_phase_terms.py"]}
{"id": "C74", "title": "A topology optimisation with speciation selects by score times species size, and saves the true scores", "statement": "Let topology_optimization return, for any update rule, started in a process whose earlier calls returned, from a graph without a speciation descriptor (and, for the four rules without speciation, with no manager left over from an earlier call). Then each generation has a saved population and a log row; the population is never empty and has as many members as asked for, or all evaluated ones if there are fewer. There is a division of the evaluated graphs into species (the ones with equal label for the subpopulation scheme; within 0.01 of the representative, and representatives further apart than that, for the edit distance scheme; everybody alone without speciation) such that the population consists of those with the least score times species size (times the protection factor, at least one, if a half life is given), in this order, each with the score its own parameter optimisation gave it. The logged best score and the first entry of the hall of fame are the lowest score evaluated so far, untouched by sharing. Under the subpopulation rule labels are the start positions modulo the target number, and a label that is no longer evaluated never returns. The best graph of a generation need not be kept; among equal negative scores, without half life, members of larger species have the lower weight. No run with at least one generation returns when elitism asks for at least one individual; or with 'random' combined with any scheme; the photoNEAT rules raise ValueError; a vectorDIFF run of at least two individuals returns only if some graph evaluated in its first generation has no terminal node. A rule of another name raises NotImplementedError before anything is done, and no other rule does: without generations each returns.", "quantifier": "every library, evolver, evaluator, similarity, parameter optimiser, random outcome, set order, configuration, and history of earlier calls in the process; scores without NaN for the statements on order", "why_tests_cant": "Unbounded generations, populations and histories; all score and label patterns.", "anchors": ["algorithms/topology_optimization.py:topology_optimization", "algorithms/topology_optimization.py:_simple_subpopulation_setup", "algorithms/topology_optimization.py:_edit_distance_setup", "algorithms/speciation.py:Speciation"]}
{"id": "C75", "title": "A topology optimisation with speciation breaks later ones without it in the same process", "statement": "The speciation manager is a module variable that outlives the call. Started from a graph without a speciation descriptor and with at least one generation, a rule with speciation gives the same result whatever manager was left over. But after any returned call with speciation, no call of topology_optimization with 'random', 'preferential', 'roulette' or 'tournament' and at least one generation returns, from whichever graph without descriptor it starts, in particular from every graph that existed before; graphs that existed before a call keep their descriptors.", "quantifier": "every pair of calls with all their arguments and outcomes of random choices, in every history of returned calls", "why_tests_cant": "All histories of calls in a process; a test runs one call.", "anchors": ["algorithms/topology_optimization.py:SPECIATION_MANAGER", "algorithms/topology_optimization.py:topology_optimization", "algorithms/speciation.py:Speciation.speciate", "scripts/run_topology_search_varied_params.py"]}
{"id": "C76", "title": "With noise on, simulations succeed as without it, and give numbers on even grids but nan behind lasers on odd ones", "statement": "Noise is on by default. For every graph that the operators can reach and every outcome of the random numbers, a simulation with noise raises exactly when the same simulation without noise does, and every saved array that contains only numbers has one entry per sample. If the number of samples is even, no draw is zero everywhere and (for amplifiers) no frequency of the grid lies below zero, every saved array consists of numbers. If the number of samples is odd, everything saved behind a continuous wave or pulsed laser contains nan, and when all starting connections are such lasers every end measures nan and no evaluation returns a number. In a graph without lasers, noisy signal, amplifier and photodiode the simulation with noise saves what the simulation without noise saves.", "quantifier": "every evolved graph, parameter values within bounds, grid and outcome of the random numbers", "why_tests_cant": "All graphs, grids and random outcomes; a test simulates a few graphs with one seed on one grid size.", "anchors": ["simulator/fiber/assets/additive_noise.py:AdditiveNoise.add_noise_to_propagation", "simulator/fiber/assets/additive_noise.py:AdditiveNoise._get_noise_vector", "lib/graph.py:Graph.propagate", "simulator/fiber/node_types_subclasses/inputs.py:ContinuousWaveLaser.update_noise_model", "simulator/fiber/node_types_subclasses/single_path.py:OpticalAmplifier.get_ASE_filter", "simulator/fiber/node_types_subclasses/outputs.py:Photodiode"]}
{"id": "C77", "title": "The searches of the scripts: evaluation of every graph they reach succeeds except with a square filter of no width, and the scores stay in fixed ranges", "statement": "From a start graph whose connections to the ends are protected detectors of one class and do not lead straight from the starts, evolution only brings in component classes that the library offers, and every connection to an end keeps its detector. If the start graph fits its splitters and the score accepts every field of the grid's length, evaluating an evolved graph at an end raises exactly when a square filter of no width is in it or the bins of a wave shaper in it do not fit the grid, with noise exactly as without. In the search for radio frequency waveforms (run_rfawg.py, and batch_rfawg.py for each of the four waveforms; full library, photodiode detector, 2^14 samples) evaluation therefore fails exactly for a square filter of no width, and every score that is a number is real and lies between 0 and 72.25 without noise and between 0 and 77 with noise, whatever the random numbers. In the search for filters (run_filter_design.py) evaluation never fails and a score that is a number lies between -1 and 0. In the search for noise suppression (run_noise_suppresion.py, system 1) evaluation never fails and the score is a number of at least 0; with noise it is never negative, and a number whenever no draw is zero everywhere. With the start graph of run_pulse_rep.py (a pulsed laser with its ordinary values, 2^15 samples in 4 ns) evaluation fails exactly for a square filter of no width, and every score that is a number is real and at least 0, with noise and without. With the evaluator of run_better_awg.py, which gets no amplitude, no graph of the search can ever be evaluated: the error is TypeError except where a square filter of no width raises first. Through every such search the protected components of the start graph stay and no others become protected: the photodiode; impulse and detector; noisy signal and detector; pulsed laser and detector.", "quantifier": "every start graph of the stated kind, list of operators, sequence of evolution steps and evaluations with any parameter values within bounds, and outcome of the random numbers; for the scripts every graph and parameter value their search can reach", "why_tests_cant": "A search is an unbounded sequence of random operators and parameter values; a run of the script visits a few dozen graphs with one seed.", "anchors": ["scripts/run_rfawg.py", "scripts/batch_rfawg.py", "scripts/run_filter_design.py", "scripts/run_noise_suppresion.py", "simulator/fiber/evolver.py:ProbabilityLookupEvolver.evolve_graph", "simulator/fiber/evaluator_subclasses/evaluator_rfawg.py:RadioFrequencyWaveformGeneration", "simulator/fiber/evaluator_subclasses/evaluator_filter_design.py:FilterDesign", "simulator/fiber/evaluator_subclasses/evaluator_noise_suppression.py:NoiseSuppression", "scripts/run_pulse_rep.py", "scripts/run_better_awg.py", "simulator/fiber/evaluator_subclasses/evaluator_pulserep.py:PulseRepetition"]}
{"id": "C78", "title": "Recording transforms does not change a simulation, fails exactly with fibres and phase shifters, and records what each component did", "statement": "A noise-free run with save_transforms=True returns exactly if the run without it returns and no connection holds a dispersive fibre or a phase shifter; then all fields are the same, and otherwise it raises either the exception of the plain run or NameError. A run without recording behaves as the plain run and leaves no record on the components that keep one, except on amplifiers, which keep the record of an earlier run. After a successful recording run on a well-formed graph, with the field that entered each component uniquely determined, each record fits the component and its settings: a phase modulator multiplies every field by exp(i r) sample by sample; the output power of an intensity modulator is the record, between 0 and 1, times the input power and a loss of 4 dB; filters and shapers multiply the spectrum of every field by the recorded amplitudes and phases in rising order of frequency (with 4.5 dB loss for the shapers); a delay line holds a one at the first time sample nearest to minus its delay and zeros elsewhere; a split-and-delay line holds at each sample the ratio of the last of its delays that falls there; an amplifier's curve is half its power gain in dB; an attenuator has none. Components off the graph and sources and detectors keep what they had. For every graph reached by evolution and parameter changes the success of the recording run is characterised by the start graph's splitters, square filters of no width, the wave shaper's bins and the absence of fibres and phase shifters.", "quantifier": "every acyclic well-formed typed graph with distinct components, parameter values within the declared types, grid, incoming field, previous records, and session of evolution steps", "why_tests_cant": "The records depend on graph, parameters, grid and field through every component class; a test compares single curves, and a test that records a graph without a fibre or phase shifter never meets the undefined names.", "anchors": ["lib/graph.py:Graph.propagate", "simulator/fiber/node_types_subclasses/single_path.py:DispersiveFiber.propagate", "simulator/fiber/node_types_subclasses/single_path.py:PhaseShifter.propagate", "simulator/fiber/node_types_subclasses/single_path.py:OpticalAmplifier.propagate", "simulator/fiber/node_types_subclasses/single_path.py:WaveShaper.propagate", "simulator/fiber/node_types_subclasses/single_path.py:DelayLine.propagate"]}
{"id": "C79", "title": "Phase noise points, linewidth and generated phase noise fit together; a modulator made from points alone has no noise", "statement": "get_estimated_FWHM_linewidth_from_points of any non-empty list of points (offset, dBc/Hz) with non-zero offsets returns, for a least-squares fit, the mean of 2 pi f^2 2 10^(L/10) over the points weighted with 1/f^4; it lies between the smallest and the largest of these values, and points on the curve of one linewidth give exactly that linewidth. For every even number of samples, positive linewidth w and draw, the noise vector of type 'phase noise from linewidth' is the real part of a field whose transform has, at each frequency f of the grid (none is zero), the power w / (2 pi f^2) times the power of the draw's transform divided by the sampling time; 'FWHM linewidth' noise is exp(i phase) of the same; the phases of a linewidth a^2 w are a times those of w. A PhaseModulator constructed with phase_noise_points takes the estimate as its linewidth if parameters are given too, as a list (whose entry in the caller's list changes; IndexError for less than four entries) or by name (unknown names: ValueError); with neither, the points have no effect and the linewidth is zero.", "quantifier": "every list of points with non-zero offsets, least-squares fit, grid with an even number of samples, linewidth, draw, and constructor arguments", "why_tests_cant": "A unit error of a factor (two side bands, 2 pi, amplitude or power) leaves plausible noise behind; it shows only in the relation between estimate and spectrum for all inputs.", "anchors": ["simulator/fiber/assets/additive_noise.py:AdditiveNoise.get_estimated_FWHM_linewidth_from_points", "simulator/fiber/assets/additive_noise.py:AdditiveNoise._get_noise_vector", "simulator/fiber/node_types_subclasses/single_path.py:PhaseModulator.__init__"]}
{"id": "C80", "title": "The interactive viewer draws every loaded graph faithfully, or raises or hangs in exactly described cases", "statement": "Loading a graph file written from a graph with one source and at least one connection into the viewer raises ZeroDivisionError if all random heights coincide and otherwise succeeds: every node has exactly one position, all positions lie in [-1, 1] x [-1, 1] with the source at the left edge and all four edges touched, every connection leads to the right and is drawn as 100 points that start at its first node, move steadily to the right, stay between the heights of its ends and never reach the second node, and parallel connections are apart at every point after the first. With more than one source the load never ends. The names shown are the acronym of the class and the number of earlier components of the class (nodes before connections); they are pairwise different exactly if the graph does not hold both a DelayLine and an IntegratedDelayLine. The table of a selection lists the parameters, parameter names and component names of the selected connections in order, with columns of equal length, and an unknown index is a KeyError. After any history of loads, failed loads and selections of existing connections, the visible lines are exactly those of the current selection (none after a failed load). The two transform plots are always empty, because the load simulates without recording.", "quantifier": "every graph with one source, store, drawn heights, order of sets, selection and history of events", "why_tests_cant": "Whether parallel curves coincide, points leave the frame or stale lines stay visible depends on the graph and on the history of clicks; no finite set of screenshots covers them.", "anchors": ["interactive/model.py:Model.load_new_graph", "interactive/model.py:Model.get_optical_system_edge_curves", "interactive/model.py:Model.get_table_edge_data", "interactive/model.py:Model.get_plot_edge_data", "interactive/controller.py:Controller.update_table_data", "interactive/view.py:View.edge_selected_callback"]}
{"id": "C81", "title": "Saved files are found again, stay inside their directory, and a failed save loses the earlier file", "statement": "If saving an object or a dictionary under a name succeeds, loading the name from the same directory gives what was written, and it still does after any further saves, directory initialisations and metadata saves (by this or another InputOutput) that do not write exactly there; a second InputOutput with the same directory argument and working directory finds the save directory of an init_save_dir with unique_id=False and the same sub path. No directory and no file ever disappears. For names without double dots, save_object succeeds exactly if the object can be written, no file is in the way and the place is no directory; save_json succeeds exactly if in addition every directory of the path exists already. If the object cannot be written to its end, the earlier contents under the name are lost: loading reads the part written. Relative names without double dots never touch anything outside an existing save directory (names with them and absolute names do). Save directories with different drawn identifiers share no place, whatever their sub paths. save_machine_metadata raises AttributeError for an absolute text, TypeError if the metadata could not be collected, writes to the base directory (not the save directory) without an argument, and otherwise succeeds exactly if the metadata can be written, no file is in the way and the place is no directory. An optimisation that saves its populations writes one file per generation and individual: all can be loaded afterwards, and nothing else in the file system changes, so files of an earlier longer run stay. The base directory is asope_data beside the parent of the working directory, a relative directory argument lies in it and an absolute one replaces it; the directory chosen for saving or loading is the base followed by the names of the text (empty names and single dots dropped), whatever was chosen before, and choosing one leaves the other. Loading a directory raises IsADirectoryError, a name below a file NotADirectoryError and a missing name FileNotFoundError. A directory to load from is refused, with FileExistsError, exactly if nothing is there.", "quantifier": "every file system that is a tree, working directory, directory argument, sub path, name, object, writer and reader, sequence of operations and list of populations", "why_tests_cant": "Whether two runs overwrite each other or a name escapes depends on names, existing files and the order of operations; tests use one directory and fresh names.", "anchors": ["lib/functions.py:InputOutput", "lib/functions.py:InputOutput.save_object", "lib/functions.py:InputOutput.save_json", "lib/functions.py:InputOutput.init_save_dir", "lib/functions.py:InputOutput.init_load_dir", "lib/functions.py:InputOutput.save_machine_metadata", "algorithms/topology_optimization.py:save_minimal_graph_data_pop"]}
{"id": "C82", "title": "The log of the printed text is exact until the output is flushed, and an optimisation that raises keeps its log in use", "statement": "Every print reaches the terminal, and the log of every logging object in use unless this log, or one behind it, is closed; it succeeds exactly if all logs in use are open and raises ValueError otherwise. Between init_logging and close_logging the new log gets exactly the printed text, the logs already in use get it too, no other log changes, and closing restores the output that was in use before. Flushing the output in between closes the log: the next print reaches the terminal, raises ValueError, and the log keeps only the text before the flush. If close_logging is not reached (the optimisation raised), the log also gets the text of the next optimisation and everything printed after it, and the output stays redirected.", "quantifier": "every stack of open logs, every text printed and every order of these calls", "why_tests_cant": "Tests look at one optimisation that ends normally; the sharing of logs shows only with several in one process.", "anchors": ["lib/functions.py:Tee", "lib/functions.py:TeeWrapper", "lib/functions.py:InputOutput.init_logging", "lib/functions.py:InputOutput.close_logging"]}
{"id": "C83", "title": "Units of plot axes: the first line decides, a second call mislabels, and the comparison plots call sample numbers Hz", "statement": "Scaling an axis of a plot to a readable unit divides the values of every line by one power of a thousand, appends the matching prefix and the unit to the label and leaves the other axis alone; the power is chosen such that the greatest size in the first line is shown as a number between 1 and 1000, whatever the other lines show. It works exactly for greatest sizes from 1e-21 to below 1e21: otherwise nothing changes and an empty first line raises ValueError, one of zeros OverflowError, other sizes KeyError. A second call leaves the numbers and appends the unit without the prefix the numbers are in. Of two axes each gets its own power, only the last is returned, and if the second fails the first stays scaled. A plot without lines is left as it is; no axis name, or an unknown one, raises UnboundLocalError and z AttributeError. The comparison plots show field and target over times in the unit of the label, and the sizes of the Fourier components of the power over their numbers called Hz, whatever the time window; an evaluator without a target always raises, one sample raises OverflowError and a field or target of another length than the grid ValueError.", "quantifier": "every plot (any lines, values and labels), unit text and list of axis names; every grid, measured field and target", "why_tests_cant": "Plots are looked at, not tested: the wrong prefix shows only with particular magnitudes and orders of calls, and the wrong frequencies look like right ones.", "anchors": ["lib/functions.py:scale_units", "simulator/fiber/assets/functions.py:rfspectrum_", "simulator/fiber/evaluator_subclasses/evaluator_pulserep.py:PulseRepetition.compare", "simulator/fiber/evaluator_subclasses/evaluator_rfawg.py:RadioFrequencyWaveformGeneration.compare", "simulator/fiber/evaluator_subclasses/evaluator_noise_suppression.py:NoiseSuppression.compare"]}
{"id": "C84", "title": "A propagator whose number of samples is changed keeps its old wavelengths and state, and simulations of continuous sources go wrong", "statement": "The window of time and the central wavelength of a propagator never change: assigning the window always raises ValueError. Assigning the number of samples raises unless it is a whole number from 0 on, and even then that number is kept, next to the arrays of times and frequencies of the last usable number; the wavelengths always stay those of the constructor and the state stays the last array assigned, or the zeros of the constructor. So after changing the number of samples the propagator equals a new one with this number only if it is the old number: times, frequencies and their steps agree, wavelengths and state have the old length. Graphs fed only by pulsed lasers or noisy signals are then simulated exactly as with a new propagator, and so is every graph once a state with the new number of entries, whatever these are, was assigned. Graphs fed by continuous lasers or impulses still save only fields with the old number of samples, and every simulation raises as soon as one connection has a fiber, modulator, amplifier, delay line, programmable or square filter or photodiode.", "quantifier": "every sequence of assignments to a propagator (with the exceptions caught), every graph with components where they belong, all their parameters and every saved result of before", "why_tests_cant": "Tests make a new propagator for each grid; what stays behind shows only for particular orders of assignments and kinds of sources.", "anchors": ["simulator/fiber/assets/propagator.py:Propagator", "simulator/fiber/node_types_subclasses/inputs.py:ContinuousWaveLaser", "lib/graph.py:Graph.propagate"]}
{"id": "C85", "title": "An optimisation of the topology returns, with a full population in every generation, if the graph has an inner node", "statement": "Inserting a component in series is possible exactly if the graph has an inner node, one with connections both arriving and leaving; evolution never takes the last inner node away and never makes a first one, so that on a graph of sources wired straight to sinks only swapping components is ever possible. One call of the default evolver, or of the weighted one with positive weights, on a sound graph with an inner node returns and leaves such a graph. A whole optimisation without speciation returns, with the configured number of individuals evaluated and kept in every generation, if the number of generations is not one, population and hall of fame have at least one place, the elitism ratio times the population is at most one half, the similarity measure and the parameter optimisation return, and under the roulette rule the scores are positive numbers. Only the random rule may instead go on for ever, looking for a graph with free parameters. Random numbers with the promised properties exist for every library that offers connections and nodes.", "quantifier": "every library with classes in their families, every graph in use with an inner node, all random numbers, similarity measures and parameter optimisations that return, all update rules but the preferential one, every number of generations", "why_tests_cant": "That no exception occurs anywhere in a run depends on every graph that evolution may reach and on all random numbers; a run that happens to end says nothing about the next.", "anchors": ["algorithms/topology_optimization.py:topology_optimization", "algorithms/topology_optimization.py:update_population_topology_random", "algorithms/topology_optimization.py:update_population_topology_tournament", "algorithms/topology_optimization.py:update_population_topology_roulette", "lib/graph.py:interfaces", "algorithms/topology_optimization.py:update_hof", "simulator/fiber/evolution_operators/evolution_operators.py:AddSeriesComponent.possible_evo_locations"]}
{"id": "C86", "title": "Which settings a component simulates with: changes by name or in the list of parameters do not reach noise and photodiodes, and a loaded photodiode keeps the default filter", "statement": "For any sequence of making components (plainly, with a list, by names), giving them lists, setting parameters by name, writing into lists and simulating, where lists given to components have one entry per parameter name: simulating succeeds, and every component but a photodiode shapes the field by its parameters as they are at that moment. A photodiode uses responsivity, saturation and load of the moment at which it was last given a list. The noise of continuous wave lasers, phase modulators and photodiodes also is that of the moment at which the component was last given a list; the noise of a pulsed laser and the filter of a photodiode are those of the moment at which it was made. So a photodiode or pulsed laser that is made plainly and then given its list, as loading a saved graph does, has the default filter of 100 GHz and order 2, or the default linewidth of 1 kHz, while its parameters read as saved. Making by names sets the named parameters, leaves the others at their defaults, and raises ValueError for an unknown name; setting by name is read back, leaves the other names alone, and changes exactly the components that have the same list. Components share no list unless a program hands them one. A list that is too short makes phase modulators (IndexError) and photodiodes (AttributeError) impossible to make and others impossible to simulate, while lasers silently use their defaults for the missing entries. A component made without arguments has its documented value under each of its parameter names, and no other name.", "quantifier": "every sequence of such steps of any length, every class of component but for update_attributes of the splitters, all values, all numbers of components and lists, all lengths of lists for the last claim", "why_tests_cant": "Which of several copies of a value is used depends on the order of all earlier steps on all components that share a list; tests fix one order, and the wrong value gives a plausible simulation.", "anchors": ["lib/base_classes.py:NodeType.__init__", "lib/base_classes.py:NodeType.set_parameters", "lib/base_classes.py:NodeType.set_parameter_from_name", "lib/base_classes.py:NodeType.set_parameters_as_attr", "simulator/fiber/node_types_subclasses/inputs.py:PulsedLaser", "simulator/fiber/node_types_subclasses/inputs.py:ContinuousWaveLaser.update_noise_model", "simulator/fiber/node_types_subclasses/outputs.py:Photodiode", "simulator/fiber/node_types_subclasses/single_path.py:PhaseModulator.update_noise_model", "simulator/fiber/node_types_subclasses/single_path.py:OpticalAmplifier", "lib/minimal_save.py:build_from_minimal_graph_info"]}
{"id": "C87", "title": "The tuning utilities never return a tuned population: genetic tuning and gradient descent raise in their first generation or batch, and no gradient or Hessian can be computed", "statement": "tuning_genetic_algorithm with at least one generation and tuning_adam_gradient_descent with at least one batch raise an exception for every graph, evaluator, noise and setting. For a graph whose parameters can be read and sampled and an evaluator that always scores: genetic tuning without resampling and without descent, with single point crossover, evaluates n_population + 2 floor(rate_crx n_population) + floor(rate_mut n_population) lists of parameters, each inside the bounds and with nothing else of the graph changed, and then raises TypeError; the population is lost, and the graph keeps the parameters of the last evaluation. With the default resampling, if resampling raises, as it does for every graph with a connection, that exception comes after the first population; with resampling per individual it comes before any evaluation. Without generations the first population is returned in the order it was sampled, with a log of one row that holds number, mean, variance, maximum and minimum of its scores. Gradient descent raises KeyError before it writes a parameter, except those of a first population it made itself; without batches it returns the population it was given sorted by score; a population of the wrong size raises ValueError. adam_gradient_projection raises KeyError for any iterations, and returns its argument for none. get_hessian returns a function that raises KeyError wherever it is called. All of them leave the noise switch as the argument set it. Mutation takes at least one and not all entries from the mutant, any such choice can come out, and it raises ValueError for fewer than two parameters.", "quantifier": "every graph, evaluator, noise, state of the process, random numbers and settings for the first claim; every sampleable graph, every size of population and every number of rounds, generations, batches and iterations for the others", "why_tests_cant": "That no setting makes these functions return is a statement about all settings and graphs; nothing in the repository calls them, and a test of one configuration shows only its own exception.", "anchors": ["algorithms/parameter_optimization_utils.py:tuning_genetic_algorithm", "algorithms/parameter_optimization_utils.py:tuning_adam_gradient_descent", "algorithms/parameter_optimization_utils.py:adam_gradient_projection", "algorithms/parameter_optimization_utils.py:adam_bounded", "algorithms/parameter_optimization_utils.py:get_initial_population", "algorithms/parameter_optimization_utils.py:get_individual_score", "algorithms/parameter_optimization_utils.py:mutation", "algorithms/functions.py:logbook_update", "lib/hessian.py:function_wrapper", "lib/hessian.py:get_hessian"]}
{"id": "C88", "title": "Tracers of automatic differentiation are left in the graph by derivatives and removed by the next plain score", "statement": "graph.grad and graph.hess, wherever they are called and whatever becomes of them, leave an autograd ArrayBox in every free parameter of the graph; saving a graph with a free parameter to JSON then raises TypeError. What they return holds plain numbers. A graph.func of plain numbers that returns, wherever tracers were before, returns a plain score and leaves plain numbers in all parameters, so that the graph can be saved; with an evaluator that computes its score from the saved states, those and what the amplifiers remember are plain too. parameters_optimize with every method returns a plain solution and score and leaves plain parameters, also when the graph held tracers before. parameters_optimize_complete leaves a score, a matrix of second derivatives and parameters that are all plain, so that every optimised graph can be saved and sent to another process. With the phase sensitivity as evaluator the saved states of an optimised graph can still be tracers, of the evaluator's own differentiation only, until clear_propagation.", "quantifier": "every well-formed graph whose components do not share parameter lists, every state of it with tracers in any free parameter, saved state or amplifier, every method of optimisation with any sequence of evaluations and gradients, every evaluator that reads saved states and the phase sensitivity, every behaviour of the components that makes no tracer of its own", "why_tests_cant": "The tracers depend on the order of evaluations and derivatives before; a test saves one graph after one order, and a left-over tracer shows only in a later save or in another process.", "anchors": ["lib/graph.py:initialize_func_grad_hess", "lib/graph.py:extract_parameters_to_list", "lib/graph.py:distribute_parameters_from_list", "lib/graph.py:propagate", "lib/autodiff_helpers.py:unwrap_arraybox_list", "algorithms/parameter_optimization.py:parameters_optimize", "algorithms/topology_optimization.py:parameters_optimize_complete", "lib/minimal_save.py:extract_minimal_graph_info", "simulator/fiber/evaluator_subclasses/evaluator_phase_sensitivity.py:evaluate_graph"]}
{"id": "C89", "title": "The scaled matrix of second derivatives and the local analysis keep each parameter's entry, unit and eigenvector; the eigenvector plot and the matrix part of a node do not", "statement": "On every graph that sessions of evolution, sampling, writing and evaluation reach, the scaling of second derivatives finds one imprecision per free parameter, in the order in which the parameters are extracted, and all are positive. The scaled matrix has at i, j the entry of the unscaled one times the imprecisions of parameters i and j, so that signs, zeros and symmetry stay; it is the matrix of second derivatives of the score in steps of the imprecisions. The local analysis returns the diagonal, the matrix, and the eigenvalues by increasing magnitude, all of them and each with its eigenvector in the same column; it warns exactly when some pair of entries that should be equal differs by more than 1e-5, and the number in the warning is the largest such difference; without parameters it raises ValueError. Plotting the eigenvectors draws the rows of their matrix: for some symmetric matrix a drawn line is not an eigenvector. The part of the matrix for given indices exists exactly if all are indices of it and has their entries; a binarized matrix has 1 where the magnitude is above the threshold and 0 elsewhere. The part of the matrix for nodes or edges is always empty, because the components of the parameters are compared with the nodes; for components it has exactly their parameters with their names.", "quantifier": "every library, start graph and session; every score with second derivatives, point and imprecisions; every matrix and eigenvector decomposition of it; every list of indices, nodes or edges, and threshold", "why_tests_cant": "Which entry belongs to which parameter depends on the evolved graph, and swapped or misaligned entries give plausible numbers; a test checks a few matrices.", "anchors": ["lib/graph.py:scaled_hess", "lib/graph.py:extract_attributes_to_list_experimental", "lib/hessian.py:lha_analysis", "lib/hessian.py:plot_eigenvectors", "scripts/hessian_observations.py:partial_hessian", "scripts/hessian_observations.py:partial_hessian_node", "scripts/hessian_observations.py:binarize_hessian"]}
{"id": "C90", "title": "The benchmark scripts stop at, or swallow, the first run with elites; their command line takes the last value of each option", "statement": "The elitism benchmark makes its runs in the order sizes, ratios, repetitions, each with its own directory and a hall of fame not larger than its population, until one raises; results are saved only for runs without an elite (ratio times size at most one half) and with one of the twelve known rule names. As the script calls it, it always ends with an error, in one of the ten runs of eight graphs without elitism or in the first run with elites: at most these ten have results, and nothing is ever run with sixteen graphs. The script for selection rules raises in its very first run and compares nothing. The script comparing evolvers makes all its 18 runs, every one of them raises, each failure is reported on the terminal, no result is saved, and the function returns normally; the output is never given back, so that the log of each run holds everything printed from its start to the end of the script. With another evaluator name than the two known, or none, the scripts raise ValueError before any run. No two runs of a benchmark share a directory. Each command line option has the value of its last use, nothing if that use had no value, and its default if it is not used; the verbose option is true for every text but the empty one, also for False and 0, and nothing without a text; a value without an option before it ends the program.", "quantifier": "every list of sizes, ratios, rules and evolvers, number of generations, hall of fame size, rule name and set of options; every start graph, library, sequence of random draws and score; every state of file system and terminal in which no file is in the way of the directories; every sequence of option uses whose values do not begin with a dash", "why_tests_cant": "The benchmarks take hours and need a cluster; one of them returns normally although every run failed, and the log of one run is extended by later ones.", "anchors": ["scripts/benchmark_elitism.py:benchmark_elitism", "scripts/benchmark_selection_rules.py:benchmark_selection_rules", "scripts/compare_evolvers.py:benchmark_evolvers", "lib/functions.py:parse_command_line_args", "algorithms/topology_optimization.py:topology_optimization"]}
{"id": "C91", "title": "The functions for trying optimisers are least exactly at their marked points, with the stated exceptions", "statement": "Nine of the twelve functions that can be asked for by name (Booth, Matyas, Ackley, Easom, Rastrigin, Rosenbrock, Beale, Goldstein-Price, Levi 13) are least at the marked point and nowhere else; the value there is 3 for Goldstein-Price and 0 for the others. The sphere is marked at (0.1, 0.1) although it is least at the origin only. The eggholder and the Gaussian cannot be made: the constructor raises ValueError; unknown names raise NameError. The samples are 1000 by 1000 points at equal distances from edge to edge of the square, one row per second coordinate, with the function's values; for Beale's function the second coordinate goes from -4.5 to 4 only. All sampled values are positive, so that they can be drawn on a logarithmic scale, and but for the sphere all are above the value at the marked point. At the marked points of the eight smooth functions among the nine the first derivatives vanish and the matrix of second derivatives is a known positive definite one; Ackley's function has no derivative at its minimum in any direction.", "quantifier": "all real points and directions; every name; every sample", "why_tests_cant": "That a point is least and the only one is a statement about all points; the samples never contain it.", "anchors": ["testing/test_functions.py:TestFunction", "testing/test_functions.py:booth_function", "testing/test_functions.py:matyas_function", "testing/test_functions.py:ackley_function", "testing/test_functions.py:easom_function", "testing/test_functions.py:rastrigin_function", "testing/test_functions.py:sphere_function", "testing/test_functions.py:rosenbrock_function", "testing/test_functions.py:beale_function", "testing/test_functions.py:goldstein_price_function", "testing/test_functions.py:levi13_function", "testing/test_functions.py:eggholder_function", "testing/test_functions.py:gaussian_function"]}
{"id": "C92", "title": "The averaged log of repeated runs is the mean only where all runs have a number; shorter runs pull it to zero and move its points", "statement": "The comparison of elitism ratios draws, for each category of population size and ratio and each asked column among mean, minimum and maximum, one line with one point per generation that some run of the category has, in increasing order. Both coordinates of a point are the total of the numbers that the runs have there, divided by the number of all runs; they are missing exactly if no run has a number. So where every run has a number the drawn one is their mean, at the generation itself; where only k of n runs have one it is k/n of their mean, drawn at k/n of the generation: runs of different length with the constant value 4 give a line that is not 4 and points between the generations. The order in which the system lists the runs does not matter. The number of runs in the title is that of the last category. The directory looked up is the one the benchmark makes, for every ratio written with digits and a point or as a whole number; for a ratio written with an exponent IndexError is raised. The plot is made exactly if the horizontal axis is generation or time, there is a category, and every category has a directory with at least one entry, each with a log; else the error is that of the first category that has one: of the name, of the directory, TypeError for an empty one, or of the first log that cannot be read.", "quantifier": "every content of the directories and logs whose rows increase; every list of categories and columns, and horizontal axis", "why_tests_cant": "Which runs are shorter than others depends on failures of long runs; the drawn numbers stay plausible.", "anchors": ["scripts/elitism_data_analysis.py:display_log_data", "scripts/benchmark_elitism.py:benchmark_elitism"]}
{"id": "C93", "title": "The sensitivity panel shows every entry under the right names, but names two kinds of delay line alike and hides the last eigenvectors of larger graphs", "statement": "When the viewer's sensitivity data are updated for a graph that was loaded from a saved one, there is one text for each free parameter, in the order of the parameters: the name of the parameter, a dash, the acronym of its component and the number of earlier components of that class. The texts are all different exactly if the graph does not have both a fibre delay line and an integrated one; with both, two parameters are called delay-DL0. For n parameters the heat map has n times n squares: the entry in row r and column c of the matrix is in column c from the left and row r from the top, with its own value, 1 plus its absolute value for the colour, and the texts of parameters c and r. The eigenvector plot has n times n bars: bar j of vector i stands at column j, starts at height 2i, is as long as entry j of an eigenvector for the i-th eigenvalue, and carries that eigenvalue, that entry and the text of parameter j; each vector has a box with its eigenvalue. If the eigenvectors are real and of length 1, bars of different vectors do not overlap and all are inside the horizontal range; with at most three parameters they are inside the vertical range, from -1 to n + 2, and with six or more parameters all bars of the last vector are above it.", "quantifier": "every graph that can be saved and loaded, its parameters, every square matrix of second derivatives, and every result of the eigenvalue routine that consists of eigenvalues and eigenvectors", "why_tests_cant": "The panel is drawn in a browser and its updates are switched off; a transposed or mirrored matrix looks right because the matrix is symmetric.", "anchors": ["interactive/model.py:Model.update_graph_hessian_data", "interactive/controller.py:Controller.graph_hessian_data", "interactive/controller.py:Controller.graph_lha_data", "interactive/view.py:View.add_lha_eigenvectors", "interactive/view.py:View.add_hessian_matrix", "interactive/model.py:Model.load_new_graph"]}
{"id": "C94", "title": "The condensed comparison of optimisers averages the runs that have begun, and ends when the first run ends", "statement": "The condensed figure of the comparison of parameter optimisers has for each method 1000 points, equally spaced in time from the start of the clock to the earliest last record of any run of the method. At a point every one of the first n runs (n being the number of runs set in the script) that has its first record by then gives the value on the broken line through its records; the drawn line is the mean of these values and the band reaches from the least to the greatest of them. So the line is always inside the band, and the band inside what the runs recorded. Nothing is drawn exactly before the first record of all runs; all n runs count from the first record of the last of them on. A run that joins later moves the line although no score changes: runs with constant scores do not give a constant line. If all runs end at the same time, the line ends at the mean of their last scores; otherwise it need not, as longer runs are cut off. With fewer logs than runs IndexError is raised, with no runs ValueError, and otherwise the figure is made; logs beyond the first n do not count in the mean, but in the end of the line.", "quantifier": "every number of runs and every list of logs, each of at least two records whose times increase and are not negative", "why_tests_cant": "The times of the records are processor times that differ from run to run, so a step or a cut of the line cannot be foreseen in a test.", "anchors": ["scripts/compare_algorithms.py:__main__", "algorithms/functions.py:ParameterOptimizationLogger.log_score"]}
{"id": "C95", "title": "Plots of optimisation logs: every row once, in the colour of its algorithm; at most eight logs can be told apart", "statement": "display_log of a log draws one set of points for each algorithm that occurs, in the order of first appearance; each set holds just the rows of that algorithm in their order, so that every row of the log is drawn exactly once. With the default colours different algorithms have different colours. For every log that calls of its methods can make, the plot is drawn exactly if the log is empty or both asked columns exist, and otherwise KeyError is raised. With colours given by the user the algorithm has the colour given, and KeyError is raised exactly if an algorithm of the log has none. display_log_comparison draws one line for each log in the given order, with all its rows; it does so exactly if every log is present, has the asked columns and was not made with colours of its own. Otherwise the first log that fails decides: AttributeError if there is no log (as the optimiser returns without logging), KeyError for a missing column, AttributeError if it was made with its own colours. The lines have different colours exactly if there are at most eight.", "quantifier": "every log, sequence of calls on the log, choice of columns and colours, and list of logs to compare", "why_tests_cant": "Whether each row is drawn once depends on the sequence of algorithms; the colours repeat only for nine logs or more.", "anchors": ["algorithms/functions.py:ParameterOptimizationLogger.display_log", "algorithms/functions.py:ParameterOptimizationLogger.display_log_comparison", "algorithms/functions.py:ParameterOptimizationLogger.__init__"]}
{"id": "C96", "title": "Only the sum counts: length can be moved between neighbouring fibres without effect elsewhere in the graph", "statement": "If one connection leads into the next through a power splitter with no other connections, and both carry fibres (or both delay lines, integrated delay lines, phase shifters or attenuators), then two settings that give the two the same total length (delay, phase, decibels) and agree on every other component are both simulated or both fail, and when simulated without noise give the same field on every other connection, including the second of the two, and at every end of the graph; only the field on the first of the two may differ. So parameters of such graphs, as of the one in scripts/build_redundant_system.py, are not determined by any output.", "quantifier": "every well-formed acyclic graph, every pair of settings within bounds, grid and input field", "why_tests_cant": "Equality of all fields for every graph around the two components and all real fields; floating point tests see rounding errors and single graphs.", "anchors": ["lib/graph.py:Graph.propagate", "simulator/fiber/node_types_subclasses/single_path.py:DispersiveFiber.propagate", "simulator/fiber/node_types_subclasses/single_path.py:DelayLine.propagate", "simulator/fiber/node_types_subclasses/single_path.py:IntegratedDelayLine.propagate", "simulator/fiber/node_types_subclasses/single_path.py:PhaseShifter.propagate", "simulator/fiber/node_types_subclasses/single_path.py:VariableOpticalAttenuator.propagate", "simulator/fiber/node_types_subclasses/multi_path.py:VariablePowerSplitter.propagate"]}
{"id": "C97", "title": "The order of two frequency components, or of two time components, does not matter", "statement": "Fibre, delay line, integrated delay line, phase shifter, square filter, wave shaper, programmable filter, attenuator and waveguide: passing a field through any two of them gives the same field in either order, and succeeds in one order exactly if it does in the other. The same holds of any two of phase modulator, intensity modulator, attenuator and waveguide. So a line of any number of components of one group may be put into any order. Across the groups it fails: a delay line and a phase modulator with parameters within their bounds both succeed in either order and give different fields.", "quantifier": "every field, every list of parameter values including unusable ones, every grid (of at least two samples for the first group)", "why_tests_cant": "Equality of fields for all real parameters, all sample counts and all 49 pairs of classes; floating point tests only see approximate equality of single fields.", "anchors": ["simulator/fiber/node_types_subclasses/single_path.py:DispersiveFiber.propagate", "simulator/fiber/node_types_subclasses/single_path.py:DelayLine.propagate", "simulator/fiber/node_types_subclasses/single_path.py:IntegratedDelayLine.propagate", "simulator/fiber/node_types_subclasses/single_path.py:PhaseShifter.propagate", "simulator/fiber/node_types_subclasses/single_path.py:SquareFilter.propagate", "simulator/fiber/node_types_subclasses/single_path.py:WaveShaper.propagate", "simulator/fiber/node_types_subclasses/single_path.py:ProgrammableFilter.propagate", "simulator/fiber/node_types_subclasses/single_path.py:VariableOpticalAttenuator.propagate", "simulator/fiber/node_types_subclasses/single_path.py:Waveguide.propagate", "simulator/fiber/node_types_subclasses/single_path.py:PhaseModulator.propagate", "simulator/fiber/node_types_subclasses/single_path.py:IntensityModulator.propagate"]}
{"id": "C98", "title": "Frequency components do not know the time, time components do not mix samples", "statement": "If a fibre, delay line, integrated delay line, phase shifter, square filter, wave shaper, programmable filter, attenuator or waveguide passes a field, it also passes the field moved by any number of samples around the ends of the window, and the result is moved by as much. So a field that repeats every m samples still does after any line of these components. If a phase modulator, intensity modulator, attenuator or waveguide passes a field, it passes every field of that length, and wherever two fields agree in a sample, so do the results. Neither holds of the other group: a phase modulator within its bounds treats a moved field differently, and a delay line within its bounds mixes samples.", "quantifier": "every field, shift, list of parameter values including unusable ones, and grid (of at least two samples for the first group)", "why_tests_cant": "Quantifies over all real fields, shifts, parameters and sample counts for all classes; locality compares all pairs of fields.", "anchors": ["simulator/fiber/node_types_subclasses/single_path.py:DispersiveFiber.propagate", "simulator/fiber/node_types_subclasses/single_path.py:DelayLine.propagate", "simulator/fiber/node_types_subclasses/single_path.py:IntegratedDelayLine.propagate", "simulator/fiber/node_types_subclasses/single_path.py:PhaseShifter.propagate", "simulator/fiber/node_types_subclasses/single_path.py:SquareFilter.propagate", "simulator/fiber/node_types_subclasses/single_path.py:WaveShaper.propagate", "simulator/fiber/node_types_subclasses/single_path.py:ProgrammableFilter.propagate", "simulator/fiber/node_types_subclasses/single_path.py:VariableOpticalAttenuator.propagate", "simulator/fiber/node_types_subclasses/single_path.py:Waveguide.propagate", "simulator/fiber/node_types_subclasses/single_path.py:PhaseModulator.propagate", "simulator/fiber/node_types_subclasses/single_path.py:IntensityModulator.propagate"]}
