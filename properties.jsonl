{"id": "C01", "title": "Integer/bit-string codec round trip", "statement": "decimal_to_binary(d, n) followed by binary_to_decimal returns d for every d < 2^n, and every length-n string over the chosen alphabet ({-1,+1} or {0,1}) is produced by exactly one d < 2^n.", "quantifier": "every number of bits n, every d below 2^n, both alphabets", "why_tests_cant": "the number of bits is unbounded and a test enumerates only a handful of small n; injectivity and surjectivity are statements about all strings", "anchors": [{"file": "src/flowket/exact/utils.py", "symbols": ["decimal_to_binary", "binary_to_decimal", "fsum"]}]}
{"id": "C02", "title": "Array codec agrees with the scalar codec, and where its 32 bit result stops being exact", "statement": "Row by row the array functions give exactly what the scalar functions give as long as the index fits a signed 32 bit integer and no pre-filled output buffer is supplied; with 32 or more bits, or with a pre-filled buffer, the returned number differs from the encoded one.", "quantifier": "every batch of rows, every row length, every buffer content", "why_tests_cant": "overflow only appears for more sites than a test can tabulate; buffer contents are an unbounded input", "anchors": [{"file": "src/flowket/exact/utils.py", "symbols": ["binary_array_to_decimal_array", "decimal_array_to_binary_array"]}]}
{"id": "C03", "title": "Tabulating a model over the whole Hilbert space and looking it up again gives the model back", "statement": "vector_to_machine applied to to_log_wave_function_vector(model) returns the model's own value on every +-1 configuration whenever the (clamped) batch size divides 2^n; when it does not divide, the tabulation fails with a shape error instead of returning a wrong vector. A vector of NetKet that is converted gives a machine with the amplitude of NetKet's number for each configuration, and keeps its entries up to their order when the numbering is a bijection; for Hilbert spaces that leave out configurations the conversion raises.", "quantifier": "every model, every n, every batch size, every configuration", "why_tests_cant": "needs all models and all batch sizes; tests use one batch size and one model", "anchors": [{"file": "src/flowket/exact/utils.py", "symbols": ["to_log_wave_function_vector", "vector_to_machine", "binary_array_to_decimal_array", "netket_vector_to_exact_variational_vector"]}]}
{"id": "C04", "title": "Log-sum-exp helpers compute the true norm", "statement": "complex_norm_log_fsum_exp(v) is the logarithm of sum_i |exp v_i| for every non-empty vector of complex numbers (so applied to 2 log psi it is log of the squared norm, and subtracting it gives normalised log probabilities); the shift by the maximum keeps the argument of the logarithm between 1 and the length of v.", "quantifier": "every non-empty vector of complex log amplitudes", "why_tests_cant": "identity over all real vectors of all lengths", "anchors": [{"file": "src/flowket/exact/utils.py", "symbols": ["complex_norm_log_fsum_exp", "log_fsum_exp"]}]}
{"id": "C05", "title": "Raster ordering visits every site once, in row-major order", "statement": "raster(shape) flattened by to_flat_ordering is 0,1,...,prod(shape)-1.", "quantifier": "every shape, any number of dimensions", "why_tests_cant": "the shape space is infinite in rank and sizes", "anchors": [{"file": "src/flowket/deepar/ordering/raster.py", "symbols": ["raster"]}, {"file": "src/flowket/deepar/ordering/flat.py", "symbols": ["to_flat_ordering"]}]}
{"id": "C06", "title": "Zigzag ordering is a walk that visits every cell of the square exactly once", "statement": "For an N x N grid with N >= 2, zigzag returns a list that contains every cell exactly once, starts at the corner (0,0) and ends at the opposite corner, and consecutive cells are neighbours (including diagonal ones). Non-square grids are rejected. For N = 1 the returned list contains a cell outside the grid.", "quantifier": "every N", "why_tests_cant": "loop whose branch structure depends on N; a test checks a few N only", "anchors": [{"file": "src/flowket/deepar/ordering/zigzag.py", "symbols": ["zigzag"]}, {"file": "src/flowket/deepar/ordering/moves.py", "symbols": ["right", "down", "up_right", "down_left"]}]}
{"id": "C07", "title": "Inverse ordering undoes the ordering", "statement": "For every ordering that visits every site exactly once, gathering by to_flat_ordering and then by to_flat_inverse_ordering (or the other way round) is the identity on every tensor. An ordering passed as an iterator, such as the raster ordering itself, is rejected with a TypeError.", "quantifier": "every shape, every permutation of its sites, every tensor", "why_tests_cant": "n! orderings", "anchors": [{"file": "src/flowket/deepar/ordering/flat.py", "symbols": ["to_flat_ordering", "to_flat_inverse_ordering"]}, {"file": "src/flowket/deepar/layers/gathering.py", "symbols": ["GatherLayer"]}]}
{"id": "C08", "title": "Convolution topology agrees with the convolution layer", "statement": "For a 'valid' strided dilated convolution in any number of dimensions, applying the layer and reading one output location equals applying the topology's single-location evaluation to the values at the locations it lists as dependencies, and all of these lie inside the input.", "quantifier": "every rank, kernel size, stride, dilation, input size, weights, input values, output location", "why_tests_cant": "infinite family of layer configurations", "anchors": [{"file": "src/flowket/deepar/graph_analysis/convolutional_topology.py", "symbols": ["ConvolutionalTopology"]}]}
{"id": "C09", "title": "Padding topologies agree with the padding layers", "statement": "Zero padding: the topology yields the single shifted location when the output location lies in the copied region and no dependency (value zero) otherwise. Periodic padding: topology and layer agree whenever the padding does not exceed the size of the dimension; beyond that they disagree.", "quantifier": "every rank, every shape, every asymmetric padding, every location", "why_tests_cant": "infinite family of shapes and paddings", "anchors": [{"file": "src/flowket/deepar/graph_analysis/padding_topology.py", "symbols": ["PaddingTopology", "PeriodicPaddingTopology"]}, {"file": "src/flowket/deepar/layers/padding.py", "symbols": ["PeriodicPadding"]}]}
{"id": "C10", "title": "Shift, concatenation, broadcast, gather and reshape topologies agree with their layers", "statement": "For DownShift/RightShift, Concatenate, broadcasting one-to-one layers and GatherLayer with a non negative axis the dependency location reported by the topology is the location whose value the layer puts at the output location. Negative axes of GatherLayer, negative spatial axes of Concatenate and every Reshape used through the dependency graph break this.", "quantifier": "every shape, axis, index list and location", "why_tests_cant": "infinite family of layer configurations", "anchors": [{"file": "src/flowket/deepar/graph_analysis/masking_topology.py", "symbols": ["DownShiftTopology", "RightShiftTopology"]}, {"file": "src/flowket/deepar/graph_analysis/concatenate_topology.py", "symbols": ["ConcatenateTopology"]}, {"file": "src/flowket/deepar/graph_analysis/one_to_one_topology.py", "symbols": ["OneToOneTopology"]}, {"file": "src/flowket/deepar/graph_analysis/gathering_topology.py", "symbols": ["GatherTopology"]}, {"file": "src/flowket/deepar/graph_analysis/reshape_topology.py", "symbols": ["ReshapeTopology"]}]}
{"id": "C11", "title": "A model whose conditionals depend on themselves is rejected", "statement": "assert_valid_probabilistic_model raises when the sampling graph of the model has a cycle. (The faithful model shows it does not: the topological sort is never run.) Running the sort does detect exactly the cyclic graphs.", "quantifier": "every finite dependency graph", "why_tests_cant": "graphs are unbounded; no test feeds a cyclic model", "anchors": [{"file": "src/flowket/deepar/graph_analysis/dependency_graph.py", "symbols": ["assert_valid_probabilistic_model", "DependencyGraph"]}]}
{"id": "C12", "title": "The fast (graph based) sampler draws the same sample as the site-by-site sampler", "statement": "Given the same random choice at each site, evaluating the dependency graph in any topological order produces exactly the configuration that repeatedly evaluating the whole network site by site produces, and the log-probabilities used at each site are those the network assigns to the final configuration.", "quantifier": "every acyclic sampling graph, every topological order, every network, every random choice", "why_tests_cant": "equivalence of two programs over all networks", "anchors": [{"file": "src/flowket/deepar/samplers/fast_autoregressive.py", "symbols": ["FastAutoregressiveSampler"]}, {"file": "src/flowket/deepar/samplers/autoregressive.py", "symbols": ["AutoregressiveSampler"]}, {"file": "src/flowket/deepar/graph_analysis/dependency_graph.py", "symbols": ["DependencyGraph"]}]}
{"id": "C13", "title": "The autoregressive sampler samples exactly from |psi|^2", "statement": "With the +-1 encoding the probability of returning a configuration is the product of the conditional probabilities the network assigns to that configuration, i.e. exp(2 Re log psi). With the 0/1 encoding the sampler assigns value 1 the probability of category 0.", "quantifier": "every autoregressive network, every ordering, every configuration", "why_tests_cant": "a distribution over 2^n configurations can only be estimated by running", "anchors": [{"file": "src/flowket/deepar/samplers/autoregressive.py", "symbols": ["AutoregressiveSampler"]}, {"file": "src/flowket/deepar/layers/one_hot.py", "symbols": ["PlusMinusOneToOneHot", "ToOneHot"]}, {"file": "src/flowket/samplers/__init__.py", "symbols": ["AutoregressiveSampler"]}]}
{"id": "C14", "title": "Number of samples returned by the samplers", "statement": "FastAutoregressiveSampler returns exactly batch_size samples when mini_batch_size divides batch_size, and strictly fewer otherwise; Ensemble returns the concatenation of its members' batches and the sum of their sizes.", "quantifier": "every batch size and mini batch size, every history of calls", "why_tests_cant": "arithmetic over all pairs of sizes", "anchors": [{"file": "src/flowket/deepar/samplers/fast_autoregressive.py", "symbols": ["__next__"]}, {"file": "src/flowket/deepar/samplers/base_sampler.py", "symbols": ["_set_batch_size"]}, {"file": "src/flowket/deepar/samplers/ensemble.py", "symbols": ["Ensemble"]}]}
{"id": "C15", "title": "The 1D convolutional machines are autoregressive", "statement": "The conditional output of SimpleConvNetAutoregressive1D (and the complex valued version) at site i is unchanged when inputs at sites >= i change.", "quantifier": "every depth, kernel size, dilation schedule, weights, activation, chain length, pair of inputs", "why_tests_cant": "non-interference over all weights, sizes and inputs", "anchors": [{"file": "src/flowket/machines/simple_conv_net_autoregressive_1D.py", "symbols": ["SimpleConvNetAutoregressive1D"]}, {"file": "src/flowket/machines/complex_values_simple_conv_net_autoregressive_1D.py", "symbols": ["ComplexValuesSimpleConvNetAutoregressive1D"]}]}
{"id": "C16", "title": "The 2D convolutional machine is autoregressive in raster order", "statement": "The conditional output of ConvNetAutoregressive2D at (h,w) is unchanged when any input at (h,w) or later in raster order changes.", "quantifier": "every depth, odd kernel size, weights, activation, grid size, pair of inputs", "why_tests_cant": "non-interference over all weights, sizes and inputs", "anchors": [{"file": "src/flowket/machines/conv_net_autoregressive_2D.py", "symbols": ["ConvNetAutoregressive2D"]}]}
{"id": "C17", "title": "The custom ordering machine is autoregressive in the ordering it is given", "statement": "The conditional output of SimpleCustomOrderingAutoregressive at the site visited k-th depends only on sites visited before.", "quantifier": "every shape, every permutation of the sites, every inner causal network", "why_tests_cant": "n! orderings times all networks", "anchors": [{"file": "src/flowket/machines/simple_custom_autoregressive_ordering.py", "symbols": ["SimpleCustomOrderingAutoregressive"]}]}
{"id": "C18", "title": "Autoregressive wave functions are normalised", "statement": "The sum over all configurations of |psi|^2 of an auto-normalised autoregressive machine is exactly 1 (exact arithmetic).", "quantifier": "every number of sites, every ordering, every conditional network that is autoregressive in it", "why_tests_cant": "sum over 2^n configurations for all networks", "anchors": [{"file": "src/flowket/machines/abstract_machine.py", "symbols": ["AutoNormalizedAutoregressiveMachine", "AutoregressiveMachine"]}, {"file": "src/flowket/deepar/layers/autoregressive.py", "symbols": ["normalize_in_log_space", "combine_autoregressive_conditionals"]}]}
{"id": "C19", "title": "EqualUpDownSpins keeps exactly the zero magnetisation sector", "statement": "In exact arithmetic, for an even number of sites, a configuration avoids every suppressed conditional iff it has as many up as down spins, and no site ever has both options suppressed. In 32 bit floating point the additive mask turns every unsuppressed entry into NaN.", "quantifier": "every even number of sites, every configuration", "why_tests_cant": "2^n configurations for all n; the floating point effect depends on the width of the dtype", "anchors": [{"file": "src/flowket/layers/spins_invariants.py", "symbols": ["equal_up_down_spins_function", "EqualUpDownSpins"]}]}
{"id": "C20", "title": "Ising connections are the rows of the transverse field Ising matrix", "statement": "For every configuration s and target t the sum of the matrix elements returned for connections equal to t is <s|H|t> of H = -J sum zz - h sum x with the grid's bonds; connection 0 is s itself and the number of connections is sites+1. With an integer h the diagonal is truncated to an integer.", "quantifier": "every 1D/2D shape, open or periodic boundary, couplings, batch", "why_tests_cant": "matrix of size 2^n x 2^n for all shapes", "anchors": [{"file": "src/flowket/operators/ising.py", "symbols": ["Ising.find_conn"]}]}
{"id": "C21", "title": "Heisenberg connections are the rows of the Heisenberg matrix and conserve magnetisation", "statement": "Used connections exchange two unequal neighbouring spins, hence conserve the total spin; their matrix element is -2 (or 2 without rotation), the diagonal is the sum of neighbour products, unused connections have matrix element 0, and connectivity is symmetric so the matrix is Hermitian.", "quantifier": "every 1D/2D shape, boundary condition, configuration", "why_tests_cant": "all shapes and configurations", "anchors": [{"file": "src/flowket/operators/heisenberg.py", "symbols": ["HeisenbergFindConn.find_conn", "HeisenbergFindConn.calc_conn_and_mel"]}]}
{"id": "C22", "title": "Heisenberg.find_conn is a function of its argument", "statement": "The values returned depend only on the sample, not on earlier calls. But earlier results do not survive: they are overwritten by a later call with the same batch size, and on a 1D chain the first call changes the operator's declared state shape.", "quantifier": "every history of calls with any batch sizes", "why_tests_cant": "needs all call histories and aliasing between returned arrays", "anchors": [{"file": "src/flowket/operators/heisenberg.py", "symbols": ["Heisenberg.find_conn", "HeisenbergFindConn.__init__"]}]}
{"id": "C23", "title": "Heisenberg.random_states yields states of the requested magnetisation", "statement": "random_states succeeds exactly when the number of sites is even and total_sz is 0, and then every returned state has total spin 0; every other request raises. use_state accepts every state without a total_sz, and otherwise exactly the states whose sum is total_sz; the states that are drawn are accepted, connections never lead from accepted to other states or back, and there are accepted states for every sum that n spins can have, although only those of sum 0 are ever drawn.", "quantifier": "every shape, every total_sz, every permutation drawn", "why_tests_cant": "all sizes and requested sectors", "anchors": [{"file": "src/flowket/operators/heisenberg.py", "symbols": ["Heisenberg.random_states", "Heisenberg.use_state", "Heisenberg.find_conn"]}]}
{"id": "C24", "title": "J1-J2 edge list is the square lattice with diagonals, each bond once", "statement": "The coloured edges produced for an L1 x L2 lattice are a permutation of: for every site its right and down neighbours (colour 1) and its two forward diagonal neighbours (colour 2), with wrap around iff periodic; there are at most 4 per site so the declared maximal number of connections is never exceeded. Every bond occurs once on open grids and on periodic grids with sides of at least 3; on smaller periodic grids bonds are repeated.", "quantifier": "every L1, L2 >= 1, both boundary conditions", "why_tests_cant": "all lattice sizes", "anchors": [{"file": "src/flowket/operators/j1j2.py", "symbols": ["j1j2_two_dim_operator"]}]}
{"id": "C25", "title": "Wrapped NetKet operators yield padded but equivalent connections", "statement": "After any history of calls, the padded batch contains for each sample exactly the connections NetKet reported plus entries with matrix element 0; connection 0 is the sample; the padding size never shrinks. The code path for the old NetKet interface always fails. Without the line that raises, the old path would agree with the newer one when the sample is reported first; otherwise its exchange of two rows overwrites the first reported state, for every sample of the batch, because the temporary copy is a view. Reports with more lists of changes than the arrays have rows give IndexError.", "quantifier": "every NetKet operator, batch and call history", "why_tests_cant": "stateful growth over all call histories", "anchors": [{"file": "src/flowket/operators/netket_operator.py", "symbols": ["NetketOperatorWrapper", "NetketOperatorWrapper.old_netket_find_conn"]}]}
{"id": "C26", "title": "Both local energy evaluation paths compute sum_k H_sk psi(s_k)/psi(s)", "statement": "The balanced and the unbalanced evaluation path return the same list of local energies, equal to the definition, for every operator whose connection 0 is the sample itself and is marked as used and whose unused connections have matrix element 0.", "quantifier": "every operator, wave function, batch and pattern of used connections", "why_tests_cant": "branch taken depends on a data dependent threshold; all masks needed", "anchors": [{"file": "src/flowket/observables/monte_carlo/operator.py", "symbols": ["Observable.local_values", "local_values_optimized_for_balanced_local_connections", "local_values_optimized_for_unbalanced_local_connections"]}]}
{"id": "C27", "title": "Zero variance principle", "statement": "If the wave function is an eigenstate of the operator then every local energy equals the eigenvalue and the reported variance is 0; in general the reported variance is non negative.", "quantifier": "every operator and wave function, every batch", "why_tests_cant": "all eigenstates of all operators", "anchors": [{"file": "src/flowket/observables/monte_carlo/observable.py", "symbols": ["BaseObservable.estimate"]}, {"file": "src/flowket/observables/monte_carlo/operator.py", "symbols": ["Observable"]}]}
{"id": "C28", "title": "Loss coefficients are centred and distribute over workers", "statement": "The coefficients returned for a batch sum to zero, so adding a constant to log psi has no gradient. Claimed for several workers: the average of the workers' gradients equals the gradient computed on the union of their batches. False: for equal batch sizes it is that gradient times the number of workers, for unequal sizes the subtracted energy is not the mean over the union and the coefficients are not centred.", "quantifier": "every batch, every number of workers", "why_tests_cant": "identity over all batches", "anchors": [{"file": "src/flowket/optimization/variational_monte_carlo.py", "symbols": ["VariationalMonteCarlo"]}, {"file": "src/flowket/optimization/horovod_variational_monte_carlo.py", "symbols": ["HorovodVariationalMonteCarlo"]}, {"file": "src/flowket/optimization/loss.py", "symbols": ["loss_for_energy_minimization"]}]}
{"id": "C29", "title": "Mini batches partition the batch", "statement": "When mini_batch_size divides batch_size, every group of update_params_frequency consecutive mini batches is one whole batch in order, each sample used exactly once with its own coefficient; when it does not divide, the update frequency is larger than the number of mini batches served per batch and the tail of each batch is never served.", "quantifier": "every batch size, mini batch size, number of steps", "why_tests_cant": "infinite generator, all sizes", "anchors": [{"file": "src/flowket/optimization/mini_batch_generator.py", "symbols": ["MiniBatchGenerator"]}]}
{"id": "C30", "title": "Gradient accumulation applies the wrapped optimizer once every f steps with exactly the last f gradients", "statement": "Started fresh with frequency f, after k*f+r steps the wrapped optimizer was applied k times, each time to the sum (or mean) of the f gradients of that window, parameters do not move in between; changing the frequency in the middle applies the next update after fewer gradients unless the step count is a multiple of the new frequency.", "quantifier": "every sequence of gradients and frequency changes", "why_tests_cant": "all histories", "anchors": [{"file": "src/flowket/optimizers/accumulate_gradient_optimizer.py", "symbols": ["convert_to_accumulate_gradient_optimizer"]}]}
{"id": "C31", "title": "Training with mini batches equals training with full batches", "statement": "Composing the mini batch generator with gradient accumulation in mean mode produces exactly the parameter trajectory of the wrapped optimizer on full batches (mini batch size dividing the batch); in sum mode the gradients are larger by the factor update_params_frequency.", "quantifier": "every model gradient, wrapped optimizer, sizes and number of updates", "why_tests_cant": "equivalence of two training loops over all histories", "anchors": [{"file": "src/flowket/optimizers/accumulate_gradient_optimizer.py", "symbols": ["convert_to_accumulate_gradient_optimizer"]}, {"file": "src/flowket/optimization/mini_batch_generator.py", "symbols": ["MiniBatchGenerator"]}, {"file": "src/flowket/optimization/loss.py", "symbols": ["loss_for_energy_minimization"]}]}
{"id": "C32", "title": "Averaged weights are a convex combination of the visited weights", "statement": "set_weights_ema stores the bias corrected exponential average: a combination of the weights after each applied update with non negative coefficients (1-d)d^(t-k)/(1-d^t) that sum to 1.", "quantifier": "every decay in (0,1), every number of updates >= 1, every weight trajectory", "why_tests_cant": "all trajectories", "anchors": [{"file": "src/flowket/optimizers/accumulate_gradient_optimizer.py", "symbols": ["set_weights_ema"]}]}
{"id": "C33", "title": "Exact energy is the Rayleigh quotient", "statement": "The energy reported by exact enumeration is <psi|H|psi>/<psi|psi>, probabilities sum to one, the energy is real for Hermitian operators and lies between the smallest and largest eigenvalue bound, and it is unchanged by adding a constant to log psi. For a non Hermitian operator the complex conjugate is reported.", "quantifier": "every operator, every log amplitude vector, every batch size dividing 2^n", "why_tests_cant": "all states and operators", "anchors": [{"file": "src/flowket/optimization/exact_variational.py", "symbols": ["ExactVariational", "ExactObservable"]}]}
{"id": "C34", "title": "Exact gradient coefficients give the true gradient of the energy", "statement": "For every differentiable one-parameter family of log amplitudes the derivative of the energy equals the sum over states of 2 Re(coefficient_i * d log psi_i).", "quantifier": "every Hermitian operator and every differentiable family", "why_tests_cant": "statement about derivatives", "anchors": [{"file": "src/flowket/optimization/exact_variational.py", "symbols": ["energy_grad_coefficients"]}, {"file": "src/flowket/optimization/loss.py", "symbols": ["loss_for_energy_minimization"]}]}
{"id": "C35", "title": "Each cycle of the exact generator serves every basis state once", "statement": "In every run of number_of_states/batch_size consecutive batches aligned to the cycle each basis state is served exactly once with the coefficient belonging to it, and the machine is re-evaluated once per cycle; batch sizes that do not divide the number of states are rejected.", "quantifier": "every number of spins, batch size, number of steps", "why_tests_cant": "infinite generator", "anchors": [{"file": "src/flowket/optimization/exact_variational.py", "symbols": ["ExactVariational.to_generator", "_set_batch_size"]}]}
{"id": "C36", "title": "Exact samplers return configurations with probability |psi|^2/Z", "statement": "The probability that the exact sampler returns a configuration is the normalised probability of that configuration, i.e. the index-to-configuration mapping used for sampling and the one used for probabilities coincide.", "quantifier": "every wave function, every configuration", "why_tests_cant": "distribution over 2^n states", "anchors": [{"file": "src/flowket/samplers/exact_sampler.py", "symbols": ["ExactSampler", "WaveFunctionSampler"]}]}
{"id": "C37", "title": "Metropolis with local, exchange and uniform moves satisfies detailed balance", "statement": "pi(s) K(s->t) = pi(t) K(t->s) with pi = |psi|^2 for the one-sweep transition kernel, hence pi is stationary; exchange moves conserve the total spin; spins stay in {-1,+1}.", "quantifier": "every wave function, size and pair of configurations", "why_tests_cant": "identity between all pairs of 2^n configurations", "anchors": [{"file": "src/flowket/samplers/metropolis_hastings.py", "symbols": ["MetropolisHastingsSymmetricProposal", "MetropolisHastingsLocal", "MetropolisHastingsExchange", "MetropolisHastingsUniform"]}]}
{"id": "C38", "title": "Metropolis with Hamiltonian moves satisfies detailed balance", "statement": "The kernel that proposes a uniformly chosen used connection and corrects by the ratio of connection counts is reversible w.r.t. |psi|^2 for every operator with symmetric connectivity (Ising and Heisenberg have it).", "quantifier": "every wave function, every symmetric operator, all pairs of configurations", "why_tests_cant": "identity between all pairs of configurations", "anchors": [{"file": "src/flowket/samplers/metropolis_hastings.py", "symbols": ["MetropolisHastingsHamiltonian"]}]}
{"id": "C39", "title": "Metropolis with global proposals targets |psi|^2", "statement": "Claimed for every proposal sampler; false unless the proposal is uniform: a non uniform proposal with the symmetric acceptance rule does not leave |psi|^2 stationary.", "quantifier": "every proposal distribution and wave function", "why_tests_cant": "distributional property", "anchors": [{"file": "src/flowket/samplers/metropolis_hastings.py", "symbols": ["MetropolisHastingsGlobal"]}]}
{"id": "C40", "title": "Metropolis bookkeeping", "statement": "After any number of sweeps the cached wave function values are the values of the current configurations; the returned batch has batch_size rows laid out chain by chain; the acceptance ratio is the fraction of accepted proposals and lies in [0,1]; the number of warm-up sweeps is warm-up steps times unused samples (hence 0 for the default).", "quantifier": "every history of sweeps, every proposal, every number of chains", "why_tests_cant": "all histories", "anchors": [{"file": "src/flowket/samplers/metropolis_hastings.py", "symbols": ["MetropolisHastingsSampler.__next__", "MetropolisHastingsSampler._sweep", "warn_up"]}]}
{"id": "C41", "title": "Open boundary symmetrisation is invariant under the dihedral group", "statement": "The symmetrised wave function of make_2d_obc_invariants takes the same value on a configuration, its rotation by 90 degrees and its mirror image.", "quantifier": "every N x N grid, every wave function, every configuration", "why_tests_cant": "all functions and sizes", "anchors": [{"file": "src/flowket/machines/ensemble.py", "symbols": ["make_2d_obc_invariants", "build_symmetrization_ensemble"]}, {"file": "src/flowket/layers/dihedral_4_invariants.py", "symbols": ["Rot90", "FlipLeftRight"]}]}
{"id": "C42", "title": "Periodic symmetrisation is invariant under translations", "statement": "The symmetrised wave function of make_pbc_invariants takes the same value on all translations of a configuration, and, with the additional option, also on rotations and mirror images.", "quantifier": "every grid, every wave function, every translation", "why_tests_cant": "all functions and sizes", "anchors": [{"file": "src/flowket/machines/ensemble.py", "symbols": ["make_pbc_invariants"]}, {"file": "src/flowket/layers/transition_invariants.py", "symbols": ["Roll"]}]}
{"id": "C43", "title": "Symmetrisation preserves normalisation", "statement": "With the probabilistic combination the symmetrised wave function has the same norm as the original one for every family of bijective transformations; global spin flip symmetrisation is invariant under the global flip.", "quantifier": "every finite family of bijections, every wave function", "why_tests_cant": "sum over 2^n configurations", "anchors": [{"file": "src/flowket/machines/ensemble.py", "symbols": ["probabilistic_ensemble_op", "make_up_down_invariant"]}, {"file": "src/flowket/layers/spins_invariants.py", "symbols": ["FlipSpins"]}]}
{"id": "C44", "title": "RBMSym is translation invariant", "statement": "log psi of RBMSym takes the same value on every cyclic translation of the input.", "quantifier": "every grid shape, number of filters, weights, configuration, translation", "why_tests_cant": "all weights", "anchors": [{"file": "src/flowket/machines/rbm.py", "symbols": ["RBMSym"]}, {"file": "src/flowket/layers/complex/dense.py", "symbols": ["TranslationInvariantComplexDense"]}]}
{"id": "C45", "title": "Complex layers implement complex arithmetic", "statement": "The four-real-convolution construction is complex convolution; the stored (real, negated imaginary) weight pair starts at the value the initializer asked for; exp(lncosh z) = cosh z; exp(complex_log z) = z for z not 0, and complex_log(exp z) = z when the imaginary part lies in (-pi, pi], but not for every z.", "quantifier": "every real bilinear operation, every complex number with cosh z <> 0", "why_tests_cant": "identities over all complex numbers", "anchors": [{"file": "src/flowket/layers/complex/tensorflow_ops.py", "symbols": ["keras_conv_to_complex_conv", "lncosh", "complex_log"]}, {"file": "src/flowket/layers/complex/base_layer.py", "symbols": ["ComplexLayer.add_complex_weight"]}]}
{"id": "C46", "title": "Complex optimizer moves the complex weights along the gradient", "statement": "apply_complex_gradient adds lr times the complex gradient to every complex weight (as the layers read it); flattening the weights into a column and cutting the column back gives the same tensors.", "quantifier": "every list of shapes and values", "why_tests_cant": "all shapes", "anchors": [{"file": "src/flowket/optimizers/complex_values_optimizer.py", "symbols": ["ComplexValuesOptimizer.apply_complex_gradient"]}, {"file": "src/flowket/optimizers/utils.py", "symbols": ["column_to_tensors", "tensors_to_column"]}]}
{"id": "C47", "title": "Conjugate gradient reports the true residual and its stopping reason", "statement": "On every exit the returned residual is rhs - A x of the returned x, the iteration count is at most max_iter, and if it is smaller the residual norm is at most tol times the norm of rhs; in exact arithmetic a self-adjoint positive definite system of dimension n is solved, without a preconditioner or with any self-adjoint positive definite one, after at most n iterations.", "quantifier": "every linear operator, right hand side, tolerance, iteration limit", "why_tests_cant": "loop invariant over all runs", "anchors": [{"file": "src/flowket/optimizers/stochastic_reconfiguration/linear_equations.py", "symbols": ["conjugate_gradient"]}]}
{"id": "C48", "title": "The stochastic reconfiguration matrix is positive definite", "statement": "S + shift*I built from the centred jacobian is Hermitian and positive definite for shift > 0, so the linear system has exactly one solution; the matrix free product equals the product with the explicit matrix. Without a shift the system can be singular; the iterative solver fails for a single weight; with compute_jvp_instead_of_full_jacobian the right hand side is not the gradient.", "quantifier": "every jacobian, batch size, vector, shift > 0", "why_tests_cant": "all jacobians", "anchors": [{"file": "src/flowket/optimizers/stochastic_reconfiguration/optimizer.py", "symbols": ["ComplexValuesStochasticReconfiguration"]}]}
{"id": "C49", "title": "Per-example gradients are the gradients", "statement": "The per-example gradient tensors for dense and convolution layers are the derivatives of the linear functional defined by the upstream gradient; for convolutions this needs dilation 1. With larger dilation, or complex layers whose input is not real, they are not.", "quantifier": "every layer shape, input, upstream gradient", "why_tests_cant": "all shapes and values", "anchors": [{"file": "src/flowket/utils/jacobian.py", "symbols": ["DenseJacobian", "ConvJacobian"]}]}
{"id": "C50", "title": "A checkpoint survives a crash", "statement": "Claimed: after a crash at any point the files on disk hold a weight file and an optimizer file saved together. False: a crash between (or during) the two writes leaves new weights with the old (or a truncated) optimizer file. Without a crash, loading gives back what was saved.", "quantifier": "every history of saves and every crash point", "why_tests_cant": "crash points are not reachable from tests", "anchors": [{"file": "src/flowket/callbacks/checkpoint.py", "symbols": ["CheckpointByTime", "load_optimizer_weights"]}]}
{"id": "C51", "title": "Checkpoint period", "statement": "A save happens at a batch end iff at least the requested time passed since the previous save, so two periodic saves are never closer than the period, and training end always saves with the epoch counter advanced. The documented path containing an epoch field raises a KeyError.", "quantifier": "every sequence of batch end times and epochs", "why_tests_cant": "all timing histories", "anchors": [{"file": "src/flowket/callbacks/checkpoint.py", "symbols": ["CheckpointByTime.on_batch_end", "CheckpointByTime.on_train_end"]}]}
{"id": "C52", "title": "TensorBoard write rate", "statement": "With a numeric update frequency n a batch end writes exactly when at least n samples were seen since the last such write, so these writes are at least n samples apart and fewer than n samples are ever pending; 'batch' writes at every batch end, 'epoch' at none. The documented rate is nevertheless exceeded, because every epoch end writes too.", "quantifier": "every sequence of batch sizes", "why_tests_cant": "all histories", "anchors": [{"file": "src/flowket/callbacks/tensorboard.py", "symbols": ["TensorBoard.on_batch_end"]}]}
{"id": "C53", "title": "Evaluation reports the mean of the logged statistics", "statement": "evaluate returns for each key of the first step the mean over the steps when every step logs that key, and fails with KeyError when a later step misses one (which happens for validation callbacks with period > 1).", "quantifier": "every number of steps, every list of callbacks", "why_tests_cant": "all log histories", "anchors": [{"file": "src/flowket/evaluation/evaluate.py", "symbols": ["mean_logs", "evaluate"]}]}
{"id": "C54", "title": "Validation callbacks see one fresh batch per validation epoch", "statement": "With the default callback list the validation generator is advanced exactly once, before any validation statistic is computed, in exactly the epochs divisible by the period; early stopping on bad eigen states fires exactly under its documented conditions. With a validation generator that yields mini batches, later validation epochs see left-over mini batches instead of a fresh batch.", "quantifier": "every number of epochs, period, log values", "why_tests_cant": "all epochs and periods", "anchors": [{"file": "src/flowket/callbacks/monte_carlo/generator_iterator.py", "symbols": ["GeneratorIterator"]}, {"file": "src/flowket/callbacks/monte_carlo/__init__.py", "symbols": ["default_wave_function_stats_callbacks_factory"]}, {"file": "src/flowket/callbacks/monte_carlo/bad_eigen_state_stopping.py", "symbols": ["BadEigenStateStopping"]}]}
{"id": "C55", "title": "Layer topology dispatch", "statement": "The topology used for a layer is the last one registered for its exact class, looked up through wrappers; hence importing the +-1 samplers changes what sampling means for every other model in the process.", "quantifier": "every registration history", "why_tests_cant": "global state over all import orders", "anchors": [{"file": "src/flowket/deepar/graph_analysis/topology_manager.py", "symbols": ["TopologyManager"]}, {"file": "src/flowket/samplers/fast_autoregressive/__init__.py", "symbols": ["PlusMinusOneSamplingTopology"]}]}
{"id": "C56", "title": "Turning a conditional Keras model into a wave function", "statement": "Claimed to succeed for every valid conditional model; false: the constructor reads attributes before they are set and always raises AttributeError.", "quantifier": "every model", "why_tests_cant": "no test covers it; universally quantified failure", "anchors": [{"file": "src/flowket/machines/abstract_machine.py", "symbols": ["AutoregressiveWrapper"]}, {"file": "src/flowket/machines/abstract_machine.py", "symbols": ["keras_conditional_wave_functions_to_wave_function"]}]}
{"id": "C57", "title": "Multi stage training resumes where it stopped", "statement": "With one value per stage, a run that is interrupted in any epoch and restarted executes every remaining epoch with the settings of the stage it belongs to and ends after the total number of epochs; a single value given for several stages yields a malformed configuration.", "quantifier": "every stage list, every interruption epoch", "why_tests_cant": "all interruption points", "anchors": [{"file": "experiments/train.py", "symbols": ["to_valid_stages_config", "train", "load_weights_if_exist"]}]}
{"id": "C58", "title": "Reading a real network output as log amplitudes", "statement": "VectorToComplexNumber on axis -1 or a positive axis pairs component k with component k + n/2 as real and imaginary part (other negative axes fail or pair wrongly), one-hot encoding maps +1 to category 0 and -1 to category 1, and combining conditionals sums exactly the selected entries.", "quantifier": "every vector length, every configuration", "why_tests_cant": "all sizes", "anchors": [{"file": "src/flowket/layers/complex/casting.py", "symbols": ["VectorToComplexNumber"]}, {"file": "src/flowket/deepar/layers/one_hot.py", "symbols": ["PlusMinusOneToOneHot"]}, {"file": "src/flowket/deepar/layers/autoregressive.py", "symbols": ["combine_autoregressive_conditionals"]}]}
{"id": "C59", "title": "Weight normalisation starts as the identity and fixes column norms", "statement": "After construction the normalised kernel equals the raw kernel (no exponential parametrisation), and at any time each output column has norm |g|, for columns of length at least 1e-6; shorter ones come out too short.", "quantifier": "every kernel with non zero columns, every g", "why_tests_cant": "all kernels", "anchors": [{"file": "src/flowket/deepar/layers/wrappers.py", "symbols": ["WeightNormalization"]}]}
{"id": "C60", "title": "Normalising in log space", "statement": "normalize_in_log_space returns logits whose exponentials, raised to norm_type, sum to one over the last axis, and changes all entries of a site by the same amount.", "quantifier": "every vector of real log amplitudes, every positive norm type", "why_tests_cant": "all real vectors", "anchors": [{"file": "src/flowket/deepar/layers/autoregressive.py", "symbols": ["normalize_in_log_space"]}]}
{"id": "C61", "title": "Exact training and evaluation report the exact expectation values", "statement": "The exact callbacks log, per batch or per epoch, the energy, its variance, the relative error and the (absolute) magnetisation of the machine that was current when the last exact cycle began; exact_evaluate reports those of the machine it is given whatever was evaluated before; registering the machine-updated callback makes every batch use the current machine. The observable callback with its default arguments raises an AttributeError instead.", "quantifier": "every chain length up to 31, Hamiltonian, batch size dividing 2^n, history of earlier evaluations, sequence of machines during training, number of steps and epochs", "why_tests_cant": "all training histories and batch sizes; stale values only show at particular cycle offsets", "anchors": [{"file": "src/flowket/callbacks/exact/local_energy.py", "symbols": ["ExactLocalEnergy"]}, {"file": "src/flowket/callbacks/exact/sigma_z.py", "symbols": ["ExactSigmaZ"]}, {"file": "src/flowket/callbacks/exact/observable.py", "symbols": ["ExactObservableCallback"]}, {"file": "src/flowket/callbacks/exact/runtime_stats.py", "symbols": ["RuntimeStats"]}, {"file": "src/flowket/callbacks/exact/machine_updated.py", "symbols": ["MachineUpdated"]}, {"file": "src/flowket/callbacks/exact/__init__.py", "symbols": ["default_wave_function_callbacks_factory"]}, {"file": "src/flowket/evaluation/evaluate.py", "symbols": ["exact_evaluate"]}]}
{"id": "C62", "title": "Convergence statistics of Markov chain samples", "statement": "For at least two chains of at least two samples the reported scale reduction and variance are those of Bayesian Data Analysis, do not depend on shifting the energies and scale with them; the reported autocorrelation sum stops one lag after the book's, so the reported effective sample size is not the book's and can be negative. With a single chain, the default, the statistics raise ZeroDivisionError.", "quantifier": "every number of chains and samples per chain, every list of local energies", "why_tests_cant": "all sample values, including those on which a pair of autocorrelations turns negative", "anchors": [{"file": "src/flowket/samplers/metropolis_hastings.py", "symbols": ["sum_correlations", "MetropolisHastingsSampler.calc_r_hat_value"]}, {"file": "src/flowket/callbacks/monte_carlo/mcmc_stats.py", "symbols": ["MCMCStats"]}]}
{"id": "C63", "title": "Monte Carlo estimates of energy, variance and gradient on average", "statement": "Whatever sampler gives every row of a batch the distribution |psi|^2, the energy a step reports averages to <psi|H|psi>/<psi|psi>. For independent rows, which the autoregressive and the exact sampler produce, the mean square error of the energy is (<H^2>-<H>^2)/B for a Hermitian H, the reported variance averages to (B-1)/B times the fluctuation of the real part of the local energy, and the derivative of the batch loss averages to (B-1)/B^2 times the derivative of the energy, or (WB-1)/(WB)/B with W Horovod workers; with a single row the targets vanish and nothing is learned.", "quantifier": "every number of spins, batch size and number of workers, every represented operator and wave function", "why_tests_cant": "statements about averages over all batches, unbounded batch sizes and arbitrary wave functions", "anchors": [{"file": "src/flowket/optimization/variational_monte_carlo.py", "symbols": ["VariationalMonteCarlo"]}, {"file": "src/flowket/optimization/horovod_variational_monte_carlo.py", "symbols": ["HorovodVariationalMonteCarlo"]}, {"file": "src/flowket/deepar/samplers/autoregressive.py", "symbols": ["AutoregressiveSampler"]}, {"file": "src/flowket/samplers/exact_sampler.py", "symbols": ["ExactSampler"]}]}
{"id": "C64", "title": "Convergence of the Metropolis samplers", "statement": "Driven sweep by sweep, a Metropolis chain follows a path of configurations with probability equal to the product of the one-sweep transition probabilities. With uniform proposals its distribution approaches |psi|^2/<psi|psi> at least by the factor 1 - 1/(2^n max p) per sweep; with local flips it converges geometrically from every start exactly unless all amplitudes have equal modulus (then it alternates between two halves for ever); with exchange moves it converges within the configurations of equal total spin and never leaves them; the Hamiltonian sampler converges on all configurations for the Ising operator and within equal total spin for the Heisenberg operator. The distance to the stationary distribution never grows and bounds the error of every mean.", "quantifier": "all lattice shapes, all wave functions with nonzero amplitudes, all starting distributions, all numbers of sweeps", "why_tests_cant": "A test runs a finite number of sweeps on one wave function; it cannot tell a slowly converging chain from one that never converges, and periodicity or a conserved quantity can be hidden by averaging.", "anchors": [{"file": "src/flowket/samplers/metropolis_hastings.py", "symbols": ["MetropolisHastingsSampler", "MetropolisHastingsSymmetricProposal", "MetropolisHastingsLocal", "MetropolisHastingsExchange", "MetropolisHastingsUniform", "MetropolisHastingsHamiltonian"]}]}
{"id": "C65", "title": "Evaluating the symmetrised wave function with samples of the unsymmetrised one", "statement": "The evaluation scripts draw configurations from the trained machine but compute local energies of its symmetrised version. Because the modulus squared of the probabilistic ensemble is the mean of those of the images, and the Hamiltonian commutes with the images, every batch statistic that ignores the symmetry has the same average as if the batch were drawn from the symmetrised wave function: the energy is unbiased, with the same mean square error and the same average reported variance, and so is the absolute magnetisation. This holds for the eight images of square grids with either boundary, for the global flip, for both combined (run_evaluation.py), and for translations with periodic boundary. It fails for the plain average of amplitudes, for translations of open lattices, for images of rectangular grids and for the magnetisation.", "quantifier": "all machines (arbitrary complex log amplitudes per shape), all square grids or chains and grids, both boundary conditions, all couplings, all batch sizes and batch laws with the right one-row marginals", "why_tests_cant": "The estimates are random; a bias of the mean is invisible in single runs, and a test compares invariance of the ensemble's values, never the distribution of the samples with the wave function evaluated.", "anchors": [{"file": "src/flowket/machines/ensemble.py", "symbols": ["make_2d_obc_invariants", "make_pbc_invariants", "make_up_down_invariant", "probabilistic_ensemble_op", "average_ensemble_op"]}, {"file": "src/flowket/optimization/variational_monte_carlo.py", "symbols": ["VariationalMonteCarlo", "next_batch"]}, {"file": "experiments/run_evaluation.py", "symbols": ["run"]}]}
{"id": "C66", "title": "The fast graph sampler on the built-in machines", "statement": "For every real or complex 1D machine and every 2D machine with an odd kernel, the layers recorded while the machine is built form a model that FastAutoregressiveSampler accepts: each layer's topology agrees with the layer, the dependency graph with the sampling edges has no cycle, and the model's output at each site is the conditional log probability of the machine. So the fast sampler returns the same configuration as the site by site sampler for the same random numbers, and draws every configuration s with probability |psi(s)|^2. A machine that rejects its parameters raises the same exception in both descriptions. With equal_up_down_spins=True the sampler raises because EqualUpDownSpins has no registered topology, and on the custom ordering machine it raises TypeError in the Reshape topology.", "quantifier": "all depths, channel numbers, kernel sizes, dilations, skip connections, weights and length-preserving activations; all chain lengths and grid sizes; all random numbers", "why_tests_cant": "A test compares samples of one small machine; a dependency missing for one combination of kernel size, dilation and border changes the distribution of samples of other machines without any error.", "anchors": [{"file": "src/flowket/deepar/samplers/fast_autoregressive.py", "symbols": ["FastAutoregressiveSampler"]}, {"file": "src/flowket/deepar/graph_analysis/dependency_graph.py", "symbols": ["DependencyGraph"]}, {"file": "src/flowket/machines/simple_conv_net_autoregressive_1D.py", "symbols": ["SimpleConvNetAutoregressive1D"]}, {"file": "src/flowket/machines/complex_values_simple_conv_net_autoregressive_1D.py", "symbols": ["ComplexValuesSimpleConvNetAutoregressive1D"]}, {"file": "src/flowket/machines/conv_net_autoregressive_2D.py", "symbols": ["ConvNetAutoregressive2D"]}, {"file": "src/flowket/machines/abstract_machine.py", "symbols": ["AutoNormalizedAutoregressiveMachine"]}]}
{"id": "C67", "title": "The J1-J2 operator is the J1-J2 Hamiltonian", "statement": "On every two-dimensional grid with at least two sites (periodic: sides of at least 3) J1J2(shape, j2, pbc) is constructed, keeps its declared number of connections over every history of calls, and the connections it reports for a configuration s with their matrix elements sum to <s|H|t> for every t, where H is the sum over neighbouring sites of XX+YY+ZZ plus j2 times the same sum over diagonal neighbours. The matrix is Hermitian, conserves the magnetisation, equals the Heisenberg Hamiltonian for j2 = 0, and does not change under the rotations and mirror images of a square, the global flip, and, on periodic grids, translations; so the energy of a symmetrised wave function is estimated without bias with samples of the unsymmetrised one. For j2 <> 0 every configuration has one connection for itself and one per bond with opposite spins. Shapes that are not two-dimensional and the open 1 x 1 grid raise AssertionError.", "quantifier": "all grids with at least two sites (periodic sides >= 3), all real j2, all non-empty batches of spin configurations, all histories of calls", "why_tests_cant": "The existing checks compare ground state energies of one 4 x 4 grid; a wrong or doubled bond at a border, a wrong sign of one matrix element or a buffer too small for one configuration shows only on other grids or rare configurations.", "anchors": [{"file": "src/flowket/operators/j1j2.py", "symbols": ["j1j2_two_dim_netket_operator", "j1j2_two_dim_operator", "J1J2"]}, {"file": "src/flowket/operators/netket_operator.py", "symbols": ["NetketOperatorWrapper"]}, {"file": "examples/j1j2_2d_monte_carlo_4.py", "symbols": ["operator"]}]}
{"id": "C68", "title": "A training run follows the energy gradient, end to end", "statement": "For the built-in autoregressive machines with any weights, the batches that the fast graph sampler (with its mini batches) hands to the Monte Carlo generator consist of independent rows with Born probabilities; the generator never fails on them and attaches the right targets; under the size condition that train.py asserts, training with mini batches and the gradient accumulating optimizer makes exactly the same updates as training on whole batches (times the number of mini batches in sum mode); and the gradient of an update is on average (B - 1) / B^2 times the derivative of the energy with respect to every weight.", "quantifier": "all weights, all 1D chains and 2D grids (odd kernels in 2D), all operators that represent a Hermitian matrix, all batch sizes and mini batch sizes with B < mini or mini | B, all optimizers, any number of updates, all random numbers", "why_tests_cant": "The statement is about averages over all random numbers and about the interplay of sampler, generator, mini batches and optimizer; a training run that converges more slowly or to a slightly wrong energy does not fail.", "anchors": [{"file": "experiments/train.py", "symbols": ["build_model", "compile_model", "train"]}, {"file": "src/flowket/deepar/samplers/fast_autoregressive.py", "symbols": ["FastAutoregressiveSampler.__next__", "FastAutoregressiveSampler._extract_the_sample"]}, {"file": "src/flowket/optimization/variational_monte_carlo.py", "symbols": ["VariationalMonteCarlo.next_batch"]}, {"file": "src/flowket/optimization/mini_batch_generator.py", "symbols": ["MiniBatchGenerator"]}, {"file": "src/flowket/optimizers/accumulate_gradient_optimizer.py", "symbols": ["convert_to_accumulate_gradient_optimizer"]}, {"file": "src/flowket/optimization/loss.py", "symbols": ["loss_for_energy_minimization"]}]}
{"id": "C69", "title": "Updates across the stages of a training run", "statement": "Whatever the accumulating optimizer counted before, a stage with f mini batches per batch that starts after s mini batches makes updates whose window of f mini batches is shifted by s mod f against the batches; the remaining gradients wait across updates and stages. If every stage starts at a multiple of its f, the run makes exactly the updates of whole batch training in every stage and nothing waits at the end. The default configurations of the two runners have this property; the Ising configuration with --mini_batch_size 256 passes the assertion of train.py and does not. A restart resets counter and accumulators, so the continued stage is whole batch training again.", "quantifier": "all stage lists that pass the assertion of train.py, all mini batch sizes, all optimizers and learning rates per stage, all gradients, any number of updates, any state of the optimizer at the start", "why_tests_cant": "The shift appears only after thousands of updates when a later stage has a larger number of mini batches per batch, and the run still trains: every update mixes gradients from two batches, of which one part was computed with older weights.", "anchors": [{"file": "experiments/train.py", "symbols": ["train", "load_weights_if_exist"]}, {"file": "src/flowket/optimizers/accumulate_gradient_optimizer.py", "symbols": ["convert_to_accumulate_gradient_optimizer"]}, {"file": "src/flowket/optimization/mini_batch_generator.py", "symbols": ["MiniBatchGenerator"]}, {"file": "src/flowket/callbacks/checkpoint.py", "symbols": ["save_optimizer_weights", "load_optimizer_weights"]}, {"file": "experiments/ising_runner.py", "symbols": ["main"]}, {"file": "experiments/heisenberg_runner.py", "symbols": ["main"]}]}
{"id": "C70", "title": "Layers that normalise along an axis", "statement": "LayerNormalization maps the features of every location to (x - mean) / sqrt(variance + epsilon) * gamma + beta; with the initial weights they have mean zero and mean square v / (v + epsilon), numbers added to all features of a location do not matter, and the result is bounded by gamma sqrt(n) + beta. LayerNormalization, NormalizeInLogSpace, Softmax along the features and elementwise layers give the same entries when the fast sampler calls them on one location. Softmax along a spatial axis does not: the fast sampler silently normalises over features instead, and the topology hides the dependencies on the other locations.", "quantifier": "all batch sizes, all spatial shapes and numbers of features, all inputs, all epsilon > 0, all gamma and beta; the failure for every shape with at least two locations along the axis", "why_tests_cant": "A wrong axis gives values of the right shape; the difference between the layer on a whole tensor and on one location shows only as wrong sampling frequencies.", "anchors": [{"file": "src/flowket/deepar/layers/layer_normalization.py", "symbols": ["LayerNormalization"]}, {"file": "src/flowket/deepar/layers/autoregressive.py", "symbols": ["normalize_in_log_space"]}, {"file": "src/flowket/deepar/graph_analysis/one_to_one_topology.py", "symbols": ["OneToOneTopology"]}]}
{"id": "C71", "title": "Gradients through every layer of the machines", "statement": "For the convolutional autoregressive machines (real and complex in one dimension, real in two), back propagation through paddings, shifts, convolutions, activations (none, relu, lncosh, crelu), residual and skip connections, the cast to complex numbers, the normalisation of the conditionals and their product yields the derivative of log psi along any curve of weights, and so the gradient of the loss of a sample, as long as no rectifier sits at zero with a moving input and no logarithm of lncosh is on its cut. With this, one update of the one dimensional machine is (B-1)/B^2 times the derivative of the energy on average, from random numbers to parameter update. The condition cannot be dropped: in row zero the two dimensional machine applies its activation to a bias alone, and with the initial bias zero log psi has no derivative there while back propagation reports zero. The gradient through weight normalisation is also correct unless the sum of squares is exactly 1e-12.", "quantifier": "all depths, channels, kernel sizes, dilations, grid sizes, weights and their places in the parameter vector, all configurations, all curves of weights; for the update all operators with a Hermitian matrix, batch and mini batch sizes", "why_tests_cant": "Numerical gradient checks sample a few weights and directions and are blind to the measure zero set where the derivative does not exist; yet the initial weights lie in exactly that set for the two dimensional machine.", "anchors": [{"file": "src/flowket/machines/simple_conv_net_autoregressive_1D.py", "symbols": ["SimpleConvNetAutoregressive1D"]}, {"file": "src/flowket/machines/complex_values_simple_conv_net_autoregressive_1D.py", "symbols": ["ComplexValuesSimpleConvNetAutoregressive1D"]}, {"file": "src/flowket/machines/conv_net_autoregressive_2D.py", "symbols": ["ConvNetAutoregressive2D"]}, {"file": "src/flowket/optimization/loss.py", "symbols": ["loss_for_energy_minimization"]}, {"file": "src/flowket/layers/complex/tensorflow_ops.py", "symbols": ["lncosh", "crelu"]}, {"file": "src/flowket/deepar/layers/wrappers.py", "symbols": ["_compute_weights"]}]}
{"id": "C72", "title": "What the commands of the experiment scripts do and print", "statement": "For square grids whose ground state energy is in the tables, the eval and train commands of the Ising and the Heisenberg script use an operator that represents the right Hamiltonian, run the planned stages, and print the means over all samples drawn by the sampler: the real part of the local energy of the symmetrised wave function, its error relative to the known energy, the variance within batches and the magnetisations; over all samples drawn independently, the printed energy is on average the energy of the symmetrised wave function, with mean square error equal to its fluctuation divided by the number of samples. The final evaluation of the documented trainings uses 2^19 samples, not the 2^15 the number of steps is computed from. Failures: no subcommand gives AttributeError; an Ising field outside the table on the open 12x12 grid gives KeyError before anything starts; without a known energy, or with a mini batch below 16 or above 2^19 + 15, the whole training runs and its final evaluation then raises, so nothing is printed; with horovod the variance and the magnetisations are those of rank 0 only, because callbacks[:4] removes the callback that averages.", "quantifier": "all configurations of the two scripts on square grids, all machines, all batches of the sampler, all numbers of workers and all checkpoints to resume from", "why_tests_cant": "The scripts run for days on a GPU, no test runs them, and the failures come after the training; the relation of the printed numbers to exact expectations needs the sum over all configurations of 144 spins.", "anchors": [{"file": "experiments/ising_runner.py", "symbols": ["main"]}, {"file": "experiments/heisenberg_runner.py", "symbols": ["main"]}, {"file": "experiments/run_evaluation.py", "symbols": ["run"]}, {"file": "experiments/train.py", "symbols": ["train"]}, {"file": "src/flowket/evaluation/evaluate.py", "symbols": ["evaluate"]}]}
{"id": "C73", "title": "Receptive fields of the convolutional machines", "statement": "The conditional distribution at site i of the 1D machines depends on the R sites before i only, and for every one of these sites there are weights for which it depends on it, where R = 1 + (kernel_size - 1) times the sum of the dilation rates of the layers (depth - 2 layers in the real, depth - 1 in the complex machine), and the rate starts at 1 and doubles while it is below max_dilation_rate. The 2D machine with D = 2 (depth - 2) + 2 causal convolutions and kernel size 2q + 1 sees exactly: in its own row the sites up to 4Dq + 1 to the left; in earlier rows (up to 2Dq + 2q + 1 of them) the sites from 4Dq + 1 (4Dq + 1 - q in the farthest rows) to the left to Dq to the right. Hence the 1D machine can represent all conditionals of n sites only if n - 1 <= R, the 2D machine only if w - 1 <= Dq and h - 1 <= 2Dq + 2q + 1. With the default arguments (use_dilation=True, max_dilation_rate=None) there is no dilation at all: the basic examples (16 sites, depth 7) see 11 sites, and the 10 x 10 examples with depth 5 cannot see the last column from the first site of a row.", "quantifier": "all depths, kernel sizes, channels, dilation arguments, lattice sizes and sites; blindness for all weights and activations, influence for every activation that preserves the order of non negative numbers (relu, lncosh)", "why_tests_cant": "A blind spot is a statement about all weights and all configurations; a network that cannot represent a correlation trains without any error and only gives a worse energy.", "anchors": [{"file": "src/flowket/machines/simple_conv_net_autoregressive_1D.py", "symbols": ["causal_conv_1d", "SimpleConvNetAutoregressive1D._build_unnormalized_conditional_log_wave_function"]}, {"file": "src/flowket/machines/complex_values_simple_conv_net_autoregressive_1D.py", "symbols": ["ComplexValuesSimpleConvNetAutoregressive1D._build_unnormalized_conditional_log_wave_function"]}, {"file": "src/flowket/machines/conv_net_autoregressive_2D.py", "symbols": ["ConvNetAutoregressive2D._causal_conv_2d", "ConvNetAutoregressive2D._resiual_block"]}, {"file": "examples/basic_autoregressive_exact_gradient.py", "symbols": ["convnet"]}]}
{"id": "C74", "title": "What the TensorBoard callback adds, feeds, writes and raises", "statement": "In the epochs that are multiples of histogram_freq every validation sample is fed to the summaries exactly once, in order, in consecutive batches of at most batch_size (all arrays cut at the same places, the learning phase handed over whole) and every batch gives one event numbered with the epoch; other epochs feed nothing. Missing validation or embeddings data raise ValueError; the generator variant feeds the current batch with zeros and weights 1/n, raises AssertionError for a model with a learning phase and AttributeError before the first batch. The embedding variable ends with the output for sample i in row i. set_model adds one histogram per weight, one per real output, one image per weight with one to three axes longer than one in which every entry has its own pixel (the assertion on the shape never fails), and nothing on a second call; with the gradient accumulating optimizer and write_grads it raises ValueError. _write_logs writes every log entry but 'batch' and 'size' once and in order, or, at the first value that is not one real number, raises after having written the entries before it; after such an exception in on_batch_end the samples are counted and the write is not. With an update_freq other than 'epoch' the logs of the epoch get the same number as those of its last batch.", "quantifier": "all models (lists of layers, weights, shapes, outputs), options, validation data, batch sizes, epochs and dictionaries of logs", "why_tests_cant": "A test sees one model and one data set; that no sample is dropped or repeated for any size, that no weight shape trips the assertion and which values make the callback raise are statements about all of them.", "anchors": [{"file": "src/flowket/callbacks/tensorboard.py", "symbols": ["TensorBoard.set_model", "TensorBoard.on_epoch_end", "TensorBoard._write_logs", "TensorBoard.on_batch_end"]}, {"file": "src/flowket/callbacks/monte_carlo/tensorboard_with_generator_validation_data.py", "symbols": ["TensorBoardWithGeneratorValidationData.on_epoch_end"]}]}
{"id": "C75", "title": "What the example scripts do", "statement": "examples/ising.py is meant to train with mini batches that fit into the memory and to print an evaluation. False for every depth: depth_to_max_mini_batch returns 1 always, so all three stages run with mini batches of one sample (one update per batch_size steps), the weights of the three stages are saved and then the evaluation raises ZeroDivisionError; without --gamma KeyError, with weights but no optimizer file TypeError; the run name states the opposite of the weight normalisation used. With the value of the table instead, the script would finish with statistics over exactly 2^15 samples. examples/j1j2_2d_monte_carlo_4.py exits after the first fit iff some epoch from the tenth on ends with a batch of small variance and energy 10% too high, otherwise evaluates; its evaluation is called with the symmetrised model but reports, for all 200 steps, the last training batch. examples/evaluate_with_2d_obc_invariant.py reports the means over the 200 batches of each model. The run index chooses from the parameter grid by its digits in mixed radix, negative indices included, and N consecutive indices choose all N combinations once.", "quantifier": "every depth, field, checkpoint, machine and sampler; every history of batch energies; every grid and every integer run index", "why_tests_cant": "The failure of ising.py comes after 250 epochs of training, and the wrong evaluation of the J1-J2 example prints plausible numbers; the grid statement is about all grids and indices.", "anchors": [{"file": "examples/ising.py", "symbols": ["depth_to_max_mini_batch", "run", "restore_run_state"]}, {"file": "examples/j1j2_2d_monte_carlo_4.py", "symbols": ["params_options", "evaluate"]}, {"file": "examples/evaluate_with_2d_obc_invariant.py", "symbols": ["evaluate"]}, {"file": "src/flowket/evaluation/evaluate.py", "symbols": ["evaluate"]}]}
{"id": "C76", "title": "Random initial values of complex weights", "statement": "A complex weight made with the names complex_glorot or complex_he has in every entry a modulus times a direction from one common draw; an initializer object cannot serve two weights; Keras initializers (one for both parts, a pair, a name) give first value + i * second value; everything else raises the stated exception (None an AttributeError, a zero fan a ZeroDivisionError). The names promise second moments E|w|^2 = 2/(fan_in+fan_out) and 2/fan_in: false, the code takes the standard deviation scale^2 instead of sqrt(scale), so that E|w|^2 = 2/n^4 (n = fan_in+fan_out or fan_in), too small by the factor n^3, right only for complex_he with fan_in 1; the outputs of a first ComplexDense layer on spins have mean square at most 2/(inputs+units)^3. The default initializer should work for both dtypes of a layer: false, with complex128 it always raises ValueError since the draws are float32. The RBM machines (one normal initializer) get E|w|^2 = 2 stddev^2.", "quantifier": "every shape, every identifier, every draw; for the moments every probability space with normal numbers of second moment 1 and, for the layer output, unrelated directions", "why_tests_cant": "A wrong variance is not visible in a single draw and only slows training down; the statements hold for all shapes and all distributions of the draws.", "anchors": [{"file": "src/flowket/layers/complex/initializers.py", "symbols": ["get", "random_rayleigh", "StandartComplexValueInitializer", "FromRealValueInitializers", "NegateDecorator", "ConjugateDecorator"]}, {"file": "src/flowket/layers/complex/base_layer.py", "symbols": ["ComplexLayer", "add_complex_weight"]}, {"file": "src/flowket/layers/complex/dense.py", "symbols": ["ComplexDense"]}, {"file": "src/flowket/machines/rbm.py", "symbols": ["RBMBase"]}]}
{"id": "C77", "title": "Saving whole models and rebuilding layers from their configuration", "statement": "from_config(get_config()) gives back every layer whose class overrides get_config or takes no arguments; written to JSON and loaded, a network of such layers with ordinary arguments comes back with layers that do the same. Not so: PeriodicPadding with a (before, after) entry, which JSON turns into a list and the rebuilt layer raises TypeError on every call; LayerNormalization, rebuilt silently with the default epsilon; ComplexDense and the complex convolutions (missing arguments, TypeError); PlusMinusOneToOneHot, CombineAutoregressiveConditionals, EqualUpDownSpins, FlipSpins (function passed twice, TypeError); ToOneHot and NormalizeInLogSpace (functools.partial, AttributeError already when saving). Hence CheckpointByTime with its default save_weights_only=False raises at the first save for every autoregressive machine of any depth, width and options, and the RBM machines are either refused or written to files that cannot be loaded; probabilistic ensembles cannot be saved either. A model compiled with stochastic reconfiguration can never be saved with its optimizer: get_config of the optimizer raises AttributeError.", "quantifier": "all argument values, all lists of layers, all machines with all hyper-parameters, lenient and strict releases of tensorflow", "why_tests_cant": "The failing save happens half an hour into a training run (or at its end), and the silent change of epsilon or the failing rebuilt padding only for particular argument values.", "anchors": [{"file": "src/flowket/deepar/layers/padding.py", "symbols": ["PeriodicPadding"]}, {"file": "src/flowket/deepar/layers/gathering.py", "symbols": ["GatherLayer"]}, {"file": "src/flowket/deepar/layers/casting.py", "symbols": ["CastingLayer"]}, {"file": "src/flowket/deepar/layers/wrappers.py", "symbols": ["WeightNormalization"]}, {"file": "src/flowket/deepar/layers/one_hot.py", "symbols": ["ToOneHot", "PlusMinusOneToOneHot"]}, {"file": "src/flowket/deepar/layers/autoregressive.py", "symbols": ["NormalizeInLogSpace", "CombineAutoregressiveConditionals"]}, {"file": "src/flowket/layers/transition_invariants.py", "symbols": ["Roll"]}, {"file": "src/flowket/callbacks/checkpoint.py", "symbols": ["CheckpointByTime"]}, {"file": "src/flowket/machines/abstract_machine.py", "symbols": ["AutoNormalizedAutoregressiveMachine", "AutoregressiveMachine"]}, {"file": "src/flowket/machines/ensemble.py", "symbols": ["make_2d_obc_invariants", "make_pbc_invariants", "make_up_down_invariant"]}, {"file": "src/flowket/optimizers/complex_values_optimizer.py", "symbols": ["ComplexValuesOptimizer.get_config"]}]}
{"id": "C78", "title": "Complex convolutions: arguments, values, shortcuts and patches", "statement": "A ComplexConv1D/2D/3D made with integer arguments and padding valid or same (any case) computes the complex convolution sum in every number of dimensions, with tensorflow's output sizes and zero padding, then adds the bias and applies the activation; the fast sampler accepts it exactly with valid padding; strides together with dilations raise ValueError. normalize_tuple returns n values that int() accepts or raises ValueError, but not as documented: digit strings and fractions pass unchanged, numpy integers are refused, None inside a tuple raises TypeError; the error message of normalize_padding offers causal, which is always refused. conv2d_complex, including its matrix product shortcut, is the convolution for channels last without dilation and whenever the shortcut is not taken; with dilations the shortcut ignores them, and for channels first it mixes up the axes. extract_complex_image_patches returns the pixels under the kernel, and multiplying them by the flattened kernel is the convolution; clipping moves imaginary parts to [0, 2 pi) without changing exponentials.", "quantifier": "all ranks, sizes, strides, dilations, channels, kernels and images; all argument values", "why_tests_cant": "The tests run a few kernel sizes on square images through the layers; conv2d_complex and its shortcut are not called by any test, and wrong values appear only for coinciding sizes with dilation or channels first.", "anchors": [{"file": "src/flowket/layers/complex/conv.py", "symbols": ["normalize_tuple", "normalize_padding", "_ComplexConv", "ComplexConv1D", "ComplexConv2D", "ComplexConv3D"]}, {"file": "src/flowket/layers/complex/tensorflow_ops.py", "symbols": ["keras_conv_to_complex_conv", "conv2d_complex", "extract_complex_image_patches"]}, {"file": "src/flowket/deepar/graph_analysis/convolutional_topology.py", "symbols": ["ConvolutionalTopology"]}]}
{"id": "C79", "title": "Automatic differentiation: forward mode from two backward passes, complex gradients and the matrix-free product", "statement": "The gradients that the optimizers build by adding nodes to the graph are derivatives: tf.gradients returns the adjoint of the derivative of the outputs and None exactly for what no output depends on. forward_mode_gradients, which differentiates a backward pass with respect to placeholders, returns the velocity of every output along the given directions, None exactly for outputs that depend on no input, and never reads its placeholders (which hold nan). For weights stored as pairs of real and imaginary parts, get_model_parameters_complex_value_gradients returns the adjoint of the complex jacobian O times the given gradients (with conjugate_gradients=True), or the transpose of O times their conjugates, and raises ValueError exactly when a weight has no influence; get_predictions_jacobian_vector_product returns O v. The mean of the derivatives, the gradient of the energy loss and the product built from forward and backward passes are therefore the mean of O, the energy gradient divided by the batch size, and the product with the regularised covariance matrix of stochastic reconfiguration.", "quantifier": "all graphs of complex additions, products, conjugations, real and imaginary parts and differentiable elementwise functions, all values, all weights, vectors and batch sizes", "why_tests_cant": "A test evaluates derivatives of one model at one point up to rounding; that the trick with nan placeholders never reads them, and which weights give None, depends on the shape of the graph.", "anchors": [{"file": "src/flowket/optimizers/utils.py", "symbols": ["forward_mode_gradients"]}, {"file": "src/flowket/optimizers/complex_values_optimizer.py", "symbols": ["to_complex_tensors", "ComplexValuesOptimizer"]}, {"file": "src/flowket/optimizers/stochastic_reconfiguration/optimizer.py", "symbols": ["ComplexValuesStochasticReconfiguration"]}, {"file": "src/flowket/optimization/loss.py", "symbols": ["loss_for_energy_minimization"]}]}
{"id": "C80", "title": "Command lines: what the options of the scripts mean, and the configuration file", "statement": "For the parsers of the experiment scripts, examples/ising.py and examples/benchmark.py: every command line made of options (exact or uniquely abbreviated, followed by their arguments or with '='), in any order and with repetitions, gives each attribute the last value written for it or its default, and is refused with status 2 when a required option is missing, an abbreviation is ambiguous or an argument cannot be read. The commands of experiments/README.md give the configurations of which the other claims speak. Conversely, whatever is written, an accepted command line gives every attribute a value of its type. The options --gamma and --use_pbc only work before the subcommand: after it they are always refused. config.json holds the attributes in order without func, with a single batch size or learning rate as a list of lists, and nothing is written when the stages do not fit. In examples/benchmark.py an option without value gives None and not the default, and an option before the framework takes the framework for its value; examples/ising.py accepts a missing gamma. The last of --use_pbc and --no_pbc before the subcommand decides the boundary, which is open without them. Likewise the last of the switches for weight normalization and for horovod after the subcommand decides; without them weights are normalized and horovod is off.", "quantifier": "all command lines, all strings, all readings of floating point numbers", "why_tests_cant": "The command lines are infinitely many; a test parses a few, and abbreviations, order, repetition and separators interact.", "anchors": [{"file": "experiments/train.py", "symbols": ["create_training_config_parser", "to_valid_stages_config", "save_config"]}, {"file": "experiments/run_evaluation.py", "symbols": ["create_evaluation_config_parser"]}, {"file": "experiments/ising_runner.py", "symbols": ["main"]}, {"file": "experiments/heisenberg_runner.py", "symbols": ["main"]}, {"file": "examples/ising.py", "symbols": ["get_params"]}, {"file": "examples/benchmark.py", "symbols": ["define_args_parser"]}]}
{"id": "C81", "title": "The network of examples/benchmark.py: value, symmetries and long kernels", "statement": "For a ring of n sites and kernels of at most n + 1 sites, the network built by run_pyket (periodic padding on the right, complex convolutions without bias, lncosh, sum over sites and channels) predicts for each row the sum over sites and channels of the layers on the ring, for any depth, width and weights. It gives the same prediction for a configuration turned around the ring, and with at least one layer for the configuration with all spins flipped. For longer kernels the padding goes around only once: every layer loses sites, the prediction is no longer the same for turned configurations, and when no place is left the layers raise ValueError.", "quantifier": "all ring sizes, kernel sizes, widths, depths, complex weights and batches of rows", "why_tests_cant": "A test evaluates the network for particular sizes and random weights; the symmetries hold for all weights and fail from a kernel size on that the defaults do not reach.", "anchors": [{"file": "examples/benchmark.py", "symbols": ["run_pyket"]}, {"file": "src/flowket/layers/padding.py", "symbols": ["PeriodicPadding"]}, {"file": "src/flowket/layers/complex/conv.py", "symbols": ["ComplexConv1D"]}, {"file": "src/flowket/layers/complex/tensorflow_ops.py", "symbols": ["lncosh"]}]}
{"id": "C82", "title": "One step of stochastic reconfiguration with any options: jacobian, solvers, statistics", "statement": "The explicit jacobian has one row per example, ordered as the direction is cut into tensors afterwards. Cholesky factorisation succeeds exactly for positive definite matrices and the substitutions solve the system; elimination succeeds exactly for regular matrices. With a real positive shift both direct solvers return the only solution of (covariance + shift) x = gradient, and the iterative solver, with or without the explicit jacobian, returns a vector within tol * norm(gradient) / shift of it. Without a shift and with no more examples than weights both direct solvers raise. The reported rank counts the eigenvalues above a bound and is below the number of examples; the reported smallest eigenvalue is never zero although the smallest eigenvalue is zero when there are no more examples than weights. Metrics, assertions and the comparison of version strings follow the options; versions 1.2 to 1.9 are taken for later than 1.14.", "quantifier": "all jacobians, shapes of weights, batch sizes, gradients, real shifts, tolerances, options and version strings", "why_tests_cant": "A test solves particular random systems in floating point, where singular matrices often look regular; that the branches agree for every batch and that the zero shift always fails for small batches needs a proof over all matrices.", "anchors": [{"file": "src/flowket/optimizers/stochastic_reconfiguration/optimizer.py", "symbols": ["ComplexValuesStochasticReconfiguration.get_updates", "compute_wave_function_gradient_covariance_inverse_multiplication_directly", "_update_s_matrix_stats", "metrics"]}, {"file": "src/flowket/optimizers/complex_values_optimizer.py", "symbols": ["get_predictions_jacobian", "ComplexValuesOptimizer.__init__"]}, {"file": "src/flowket/optimizers/utils.py", "symbols": ["tensors_to_matrix"]}]}
{"id": "C83", "title": "Restricted Boltzmann machines under stochastic reconfiguration: shapes, amplitude, jacobian, step, energy", "statement": "RBM and RBMSym create weights of the stated shapes, and the amplitude is exp(sum a_v s_v) times the product of cosh of what enters the hidden units. Back propagation, operation by operation, with the order of the weights and the sign of the imaginary variables, gives the logarithmic derivatives of the amplitudes with respect to the complex weights, and these are determined uniquely. One training step moves the complex weights by minus the learning rate times the solution of (covariance of the derivatives + shift) x = covariance of the derivatives and the local energies: exactly with a direct solver, within the tolerance with the iterative one. For the exact distribution the slope of the energy along any motion of the weights is twice the real part of velocity times conjugate force; with a positive shift the equations have a solution, and moving against it lowers the energy at least by twice the shift times its squared length. At weights where the covariance of the derivatives and the local energy is not zero, every small enough step against the solution gives weights with a lower energy.", "quantifier": "all lattices, numbers of hidden units, complex weights without vanishing cosh, batches, local energies, shifts, hermitian operators and smooth motions of the weights", "why_tests_cant": "A test compares gradients with finite differences at a few random weights of one small machine; the sign conventions of complex gradients, the order of six tensors and the rolled kernels of the symmetric machine must agree for every lattice and every weight.", "anchors": [{"file": "src/flowket/machines/rbm.py", "symbols": ["RBM.build_predictions", "RBMSym.build_predictions"]}, {"file": "src/flowket/layers/complex/dense.py", "symbols": ["ComplexDense.build", "TranslationInvariantComplexDense.build"]}, {"file": "src/flowket/layers/complex/tensorflow_ops.py", "symbols": ["lncosh", "complex_log"]}, {"file": "src/flowket/layers/complex/base_layer.py", "symbols": ["ComplexLayer.add_complex_weight"]}, {"file": "src/flowket/machines/abstract_machine.py", "symbols": ["Machine.predictions_jacobian"]}, {"file": "examples/rbm_heisenberg_1d_sr.py", "symbols": ["fit_generator"]}]}
{"id": "C84", "title": "Hamiltonian sampling with wrapped NetKet operators and with the J1-J2 operator", "statement": "With the test for zero elements switched on, the wrapper offers the sampler exactly the configuration itself and the configurations with a matrix element that is not zero, and what it remembers from earlier calls has no influence on any number of sweeps. For Hermitian operators whose connections are listed once |psi|^2 therefore satisfies detailed balance. The J1-J2 operator offers the exchanges of opposite spins on its bonds, |psi|^2 is stationary, and a chain converges to |psi|^2 restricted to the total spin it starts with, for every j2. Without the test for zeros (the default when no maximal number of connections is given) this holds if all configurations have equally many connections; otherwise the sampler is offered, and moves to, a configuration of zeros.", "quantifier": "all operators given by their connections, wrapper states, amplitudes, numbers of chains and sweeps; all grids, couplings and boundary conditions for J1-J2", "why_tests_cant": "No test samples with a wrapped operator; stationarity and convergence are statements about all sequences of random numbers, and the padding with zeros only shows when configurations have different numbers of connections.", "anchors": [{"file": "src/flowket/samplers/metropolis_hastings.py", "symbols": ["MetropolisHastingsHamiltonian._sweep"]}, {"file": "src/flowket/operators/netket_operator.py", "symbols": ["NetketOperatorWrapper.__init__", "NetketOperatorWrapper.new_netket_find_conn"]}, {"file": "src/flowket/operators/j1j2.py", "symbols": ["j1j2_two_dim_operator"]}]}
{"id": "C85", "title": "Metropolis sampling with amplitudes that vanish, overflow or are not a number", "statement": "The samplers compute the acceptance ratio in complex arrays. For finite amplitudes the result is the one of real arithmetic, so the theorems about Metropolis sampling apply. The samplers with symmetric proposals raise exactly if the logarithm of a candidate's amplitude is not finite. A chain whose current amplitude vanishes, overflows or is nan never moves again, in all samplers, even if every candidate is better. The Hamiltonian sampler does not raise: it never accepts a candidate whose modulus is not finite, and treats a phase that is nan like any other. With a machine that vanishes outside total spin zero the local sampler raises or returns its initial configurations, and the exchange sampler raises at once unless all chains start inside, where it stays.", "quantifier": "all machines with values in the extended numbers, operators, numbers of chains and sweeps, and random inputs", "why_tests_cant": "The tests sample machines with finite amplitudes only. A frozen chain gives no error: it returns the same configuration for ever, for every sequence of random numbers.", "anchors": [{"file": "src/flowket/samplers/metropolis_hastings.py", "symbols": ["MetropolisHastingsSymmetricProposal._sweep", "MetropolisHastingsHamiltonian._sweep", "MetropolisHastingsSampler.__init__"]}]}
{"id": "C86", "title": "Averages over the batches of the Metropolis samplers converge to the averages under |psi|^2, with rates", "statement": "The batch of a call of __next__ consists, chain by chain, of the states after warm-up and then after every (unused_sampels + 1)-th sweep of the trajectory that the chain makes with its own random numbers. For every observable the mean square error of the batch average against the mean under the limit distribution is at most a / (number of samples) + d / (samples per chain)^2, with constants that do not depend on the number of chains, their starts, the warm-up or the thinning; the bias is at most d / (samples per chain); and every error becomes as unlikely as wanted. This holds for local moves (unless all moduli are equal), uniform proposals and Ising moves with the limit |psi|^2, so the energy of the training step converges to the expectation of H; for exchange, Heisenberg and J1-J2 moves the limit is |psi|^2 restricted to the total spin of the start, so for a Hamiltonian that conserves the total spin the energy converges to that of the projected wave function, and averages of observables whose mean depends on the total spin stay away from their mean under |psi|^2. For the independent rows of autoregressive samplers an energy error of eps has probability at most fluctuation / (batch size * eps^2).", "quantifier": "all lattices, wave functions, observables, numbers of chains, starts, warm-up and thinning, numbers of recorded samples", "why_tests_cant": "A run with finitely many samples cannot bound the error for all starts and all wave functions, and a biased limit looks like noise.", "anchors": [{"file": "src/flowket/samplers/metropolis_hastings.py", "symbols": ["MetropolisHastingsSampler.__next__", "MetropolisHastingsSampler.warn_up", "MetropolisHastingsSymmetricProposal._sweep"]}, {"file": "src/flowket/optimization/variational_monte_carlo.py", "symbols": ["VariationalMonteCarlo.next_batch", "VariationalMonteCarlo._update_batch_local_energy"]}, {"file": "src/flowket/operators/j1j2.py", "symbols": ["J1J2"]}]}
{"id": "C87", "title": "Sizes of samplers and generators: copies, rows that come back, mini batches, and the validation batch", "statement": "A sampler has the batch size it was made or copied with and a mini batch size that is at most that; copies inherit neither, and only the two autoregressive samplers can be copied. All samplers but the fast one return batch_size rows; the fast one leaves out the remainder of the division by its mini batch size, always less than half of the rows. VariationalMonteCarlo serves the rows of one call of the sampler in consecutive slices, labelled with conj(E_loc - mean over the rows) / nominal batch size, and then calls the sampler again; set_sampler starts anew. When the sampler and the generator have the same mini batch size every mini batch is full and every row is served once; otherwise mini batches can be uneven or empty. The mean gradient of N rows with nominal batch size B is (N - 1) / (N B) times the energy gradient. In the stages of the training scripts no row is lost in training; the validation batch can be smaller than min(8 batch_size, 2^15), by less than the mini batch size. The evaluation batch size has no influence.", "quantifier": "all sizes, sampler classes, sequences of calls with changing weights, operators and wave functions", "why_tests_cant": "The tests use batch sizes that are multiples of the mini batch sizes and one call; the sizes for which rows are lost or mini batches are empty are not tried.", "anchors": [{"file": "src/flowket/deepar/samplers/base_sampler.py", "symbols": ["Sampler.__init__", "Sampler._set_batch_size"]}, {"file": "src/flowket/deepar/samplers/fast_autoregressive.py", "symbols": ["FastAutoregressiveSampler.copy_with_new_batch_size", "FastAutoregressiveSampler.__next__"]}, {"file": "src/flowket/deepar/samplers/autoregressive.py", "symbols": ["AutoregressiveSampler.copy_with_new_batch_size"]}, {"file": "src/flowket/optimization/variational_monte_carlo.py", "symbols": ["VariationalMonteCarlo.__init__", "VariationalMonteCarlo.set_sampler", "VariationalMonteCarlo.next_batch"]}, {"file": "src/flowket/optimization/mini_batch_generator.py", "symbols": ["MiniBatchGenerator.set_batch_size", "MiniBatchGenerator.next_mini_batch_size"]}, {"file": "experiments/train.py", "symbols": ["train"]}]}
{"id": "C88", "title": "Training on all configurations is gradient descent on the energy and converges", "statement": "Training with ExactVariational, an optimizer converted to accumulate num_of_batch_until_full_cycle gradients and the energy loss, as in the exact examples, makes one update per cycle. The update hands the wrapped optimizer the gradient of the energy at the weights before the cycle, divided by the batch size (gradients summed) or by the number of configurations (averaged). Inside a cycle the weights rest and the arrays are filled once per cycle. With plain SGD a small enough learning rate lowers the energy in one cycle unless the gradient is zero; for an L-smooth energy and effective step a with a L < 2 the energies decrease and converge, the gradients tend to zero, and the smallest squared gradient of K cycles is at most (E0 - m) / (a (1 - a L / 2) K) for every lower bound m. For the three convolutional machines the descent needs no assumption about back propagation: where no activation function is at a point without a derivative, their gradients give the slope of the loss along every line through the weights.", "quantifier": "all operators that represent a hermitian matrix, up to 31 spins, all accepted batch sizes, all differentiable machines, all wrapped optimizers (first part) or learning rates (second part), all numbers of steps", "why_tests_cant": "The tests compare single gradients of small machines with finite differences; they never follow a whole run, and limits cannot be tested.", "anchors": [{"file": "src/flowket/optimization/exact_variational.py", "symbols": ["ExactVariational.to_generator", "ExactVariational.machine_updated"]}, {"file": "src/flowket/optimizers/accumulate_gradient_optimizer.py", "symbols": ["convert_to_accumulate_gradient_optimizer"]}, {"file": "src/flowket/optimization/loss.py", "symbols": ["loss_for_energy_minimization"]}, {"file": "examples/basic_autoregressive_exact_gradient.py", "symbols": ["model"]}, {"file": "examples/j1j2_2d_exact_4.py", "symbols": ["exact_variational"]}, {"file": "src/flowket/machines/simple_conv_net_autoregressive_1D.py", "symbols": ["SimpleConvNetAutoregressive1D"]}, {"file": "src/flowket/machines/complex_values_simple_conv_net_autoregressive_1D.py", "symbols": ["ComplexValuesSimpleConvNetAutoregressive1D"]}, {"file": "src/flowket/machines/conv_net_autoregressive_2D.py", "symbols": ["ConvNetAutoregressive2D"]}]}
{"id": "C89", "title": "The unitary rotation of the Heisenberg operator keeps the energies exactly on lattices without odd rings", "statement": "Heisenberg(unitary_rotation=True), the default, changes the off-diagonal element from 2 to -2. On open chains and grids and on periodic ones whose sides are even (or 1) the rotated matrix is the unrotated one between the signs of one sublattice, so psi has with it the energy that sign*psi has without it, with the same probabilities, and both have the same ground energy. On every other periodic chain or grid no invertible diagonal matrix takes one to the other, and on the ring of three spins the default operator reaches energies below all energies of the Heisenberg model. With the rotation (and for the Ising operator with h >= 0) removing the phases of a wave function never raises the energy; without it this is false for two spins.", "quantifier": "all chains and grids, open and periodic, all wave functions; reported energies up to 31 spins and all accepted batch sizes and histories", "why_tests_cant": "The tests only use the default operator, once on the ring of 7 spins where it is not the Heisenberg model; a statement about all wave functions and all lattices is no finite check.", "anchors": [{"file": "src/flowket/operators/heisenberg.py", "symbols": ["Heisenberg.__init__", "HeisenbergFindConn.calc_conn_and_mel"]}, {"file": "src/flowket/operators/ising.py", "symbols": ["Ising.find_conn"]}, {"file": "src/flowket/optimization/exact_variational.py", "symbols": ["ExactVariational.machine_updated"]}]}
{"id": "C90", "title": "The total spin that the exact J1-J2 example logs is the number of sites for every wave function", "statement": "total_spin_netket_operator builds a graph whose edges join every site with itself. The operator it gives is the number of sites times the identity, whatever configurations it was called with, so the ExactObservableCallback of the example logs the number of sites for every machine. This is not the total spin: the sum over all pairs of sites of sigma_i sigma_j has the value n(n+2) on the wave function with equal amplitudes and 0 on the singlet of two spins. The true total spin commutes with the unrotated Heisenberg matrix and with the J1-J2 matrix, so it is a conserved quantity worth logging; it does not commute with the rotated Heisenberg matrix, which is the default.", "quantifier": "all lattice shapes, all drawn configurations, all histories of calls, all machines; logging up to 31 spins and all accepted batch sizes", "why_tests_cant": "The value logged is a constant for every machine, so a test on some machines cannot tell that it never depends on the machine; the example is not tested at all.", "anchors": [{"file": "examples/j1j2_2d_exact_4.py", "symbols": ["total_spin_netket_operator"]}, {"file": "src/flowket/operators/netket_operator.py", "symbols": ["NetketOperatorWrapper.__init__", "NetketOperatorWrapper.find_conn"]}, {"file": "src/flowket/operators/j1j2.py", "symbols": ["j1j2_two_dim_operator"]}, {"file": "src/flowket/operators/heisenberg.py", "symbols": ["Heisenberg.find_conn"]}]}
{"id": "C91", "title": "Training with sampled batches and SGD lowers the energy on average, with a rate", "statement": "A run of the fast sampler, the generator, gradient accumulation and SGD reaches after k updates the weights given by the batches drawn, with steps of length a = lr (gradients averaged) or lr times the number of mini batches (gradients summed); each sequence of batches is drawn exactly if the uniform random numbers lie in certain intervals, whose total volume is its probability. If the energy is smooth with constant L, one update lowers it on average by a (B-1)/B^2 |grad|^2 up to L a^2/2 times the mean square of the update, and that mean square is at most D (B-1)/B^3 times the fluctuation of the local energy. So over K updates the average squared gradient is at most (E(w0)-m) B^2 / (a (B-1) K) + L a D V / (2B). With one row per batch the weights never change.", "quantifier": "all machines the fast sampler accepts, all hermitian operators, batch sizes, mini batch sizes, weights, random numbers, numbers of updates", "why_tests_cant": "The statement is about averages over all sequences of batches of a run, whose number grows exponentially, and about all machines.", "anchors": [{"file": "src/flowket/optimization/variational_monte_carlo.py", "symbols": ["VariationalMonteCarlo.next_batch"]}, {"file": "src/flowket/deepar/samplers/fast_autoregressive.py", "symbols": ["FastAutoregressiveSampler.__next__"]}, {"file": "src/flowket/optimizers/accumulate_gradient_optimizer.py", "symbols": ["convert_to_accumulate_gradient_optimizer"]}, {"file": "src/flowket/optimization/loss.py", "symbols": ["loss_for_energy_minimization"]}]}
{"id": "C92", "title": "What the monitors of Keras see of the statistics of the library", "statement": "custom_keras_model.py combines the default callbacks with ModelCheckpoint(monitor='energy/energy', save_best_only) and EarlyStopping(monitor='energy/relative_error'). With the default log_in_batch_or_epoch=True no key of the library is in the logs of an epoch, so no weights are ever saved and the training never stops early, whatever the energies are. With log_in_batch_or_epoch=False the file holds the weights of the end of the first epoch whose last batch had the lowest energy estimate; these weights have had one update more than those the estimate belongs to, so they need not be the best. The training then ends after the first epoch whose error is not below the error of the epoch before by more than min_delta. MCMCStats writes its four values per batch or per epoch as asked, and raises AttributeError in the first batch for samplers without calc_r_hat_value. The monitors maximise the acceptance ratio and minimise every other key.", "quantifier": "all energies, losses, monitored keys, numbers of steps and epochs, batch sizes, min_delta, patience 0 or 1", "why_tests_cant": "The statement is about every course of the training; a test sees one run, and the missing file or the missing stop raises no error.", "anchors": [{"file": "examples/custom_keras_model.py", "symbols": ["checkpoint", "early_stopping", "callbacks"]}, {"file": "src/flowket/callbacks/monte_carlo/mcmc_stats.py", "symbols": ["MCMCStats.add_mcmc_logs", "MCMCStats.on_batch_end", "MCMCStats.on_epoch_end"]}, {"file": "src/flowket/callbacks/monte_carlo/local_energy_stats.py", "symbols": ["LocalEnergyStats.on_batch_end", "LocalEnergyStats.on_epoch_end"]}, {"file": "src/flowket/callbacks/monte_carlo/__init__.py", "symbols": ["default_wave_function_stats_callbacks_factory"]}]}
{"id": "C93", "title": "Early stopping on bad eigen states, and what the reported variance says about the wave function", "statement": "For a Hermitian operator the overlap of the wave function with any eigenvector of energy lambda is at most the fluctuation of the local energy divided by (E - lambda)^2, where the fluctuation is the reported variance plus the mean square of the imaginary part of the local energy. So with real local energies a variance of zero means an eigenstate, and BadEigenStateStopping stops only when the overlap with every eigenvector at or below the bound is smaller than variance_tol / (relative_error_to_stop * bound)^2, 1 / bound^2 by default. Refuted for complex amplitudes: only the real part is looked at; one spin in any field with the amplitudes exp(i w s) has reported variance 0 for every w, and the training is stopped, exact or sampled, although the wave function is no eigenstate and has overlap cos(w)^2 (3/4 for w = pi/6) with the ground state. Refuted for small energies: the tolerance for the variance is absolute, the one for the energy relative; in a field below 1/6 a wave function with overlap 9/10 is stopped. With horovod the energy is averaged over the workers but the variance is not, so workers with equal weights can decide differently. Averaging those variances over the workers gives the variance over all samples less the spread of the workers' energies: never too large, and right only if the workers' energies agree.", "quantifier": "all Hermitian operators, wave functions, eigenvectors, bounds, tolerances, epochs; for the refutations all fields and phases", "why_tests_cant": "The statement compares the statistics with all eigenvectors of all operators; the wrong stop raises no error and looks like the intended one.", "anchors": [{"file": "src/flowket/callbacks/monte_carlo/bad_eigen_state_stopping.py", "symbols": ["BadEigenStateStopping.on_epoch_end"]}, {"file": "src/flowket/observables/monte_carlo/observable.py", "symbols": ["BaseObservable.estimate"]}, {"file": "src/flowket/optimization/exact_variational.py", "symbols": ["ExactObservable.update_local_energy"]}, {"file": "examples/j1j2_2d_monte_carlo_4.py", "symbols": ["warly_stopping"]}, {"file": "src/flowket/optimization/horovod_variational_monte_carlo.py", "symbols": ["HorovodVariationalMonteCarlo._update_batch_local_energy"]}]}
{"id": "C94", "title": "The histogram layer returns the predictions and records angles of the wave function", "statement": "LogSpaceComplexNumberHistograms returns its input unchanged. It records log |psi|^2 as magnitude, an angle of psi as phase, and the angle of psi in [0, 2 pi) as normalized_phase; magnitude with either angle gives psi back, and two entries agree in normalized_phase exactly when their amplitudes differ by a positive factor. Refuted for phase: entries with equal amplitudes are recorded any number of turns apart.", "quantifier": "all predictions (any number of entries, all complex logarithms)", "why_tests_cant": "The statement is about all complex numbers, including those at the ends of the interval; summaries are not looked at by tests.", "anchors": [{"file": "src/flowket/layers/complex/histograms.py", "symbols": ["LogSpaceComplexNumberHistograms.call"]}]}
