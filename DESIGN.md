# Formal model of FlowKet in Rocq

Source: `/repo` (HUJI-Deep/FlowKet, python). Model: `rocq/theories`, Coq 8.16.1, logical root `Verif`.
This file is written by `tools/design.py` from `properties.jsonl`, `MANIFEST.json`, `tools/ideas.json`,
`tools/design_head.md` and `tools/design_tail.md`.

## 1. Method

* Every python function in scope becomes a total Gallina function. Exceptions are values
  (`res A := Ok a | Err e`). Loops become structural recursion; a loop whose bound is data becomes
  recursion on that bound. State (caches, counters, files, global registries, clocks) is passed explicitly.
* `<Area>Model.v` holds definitions only, each with file and lines of the python source and the
  simplifications made. `<Area>Spec.v` holds the independent specification, written without the model's
  helpers. `<Area>Proofs.v` holds lemmas. `<Area>Props.v` holds the property theorems, each followed by
  `Print Assumptions` and by an `Example` that meets its hypotheses with a concrete non trivial case.
* Names: `Cnn_...` proves property Cnn; suffix `_partial` means only part of the statement is covered
  (a comment says what is missing); suffix `_refuted` means a claim a user would make is false of the
  code as written, shown by a witness or by proving the failure for all inputs.
* All proofs are by induction, invariants, refinement or algebra, for all sizes. Computation on literals
  occurs only in witnesses of `_refuted` theorems and in the examples.
* The theorems are tested against wrong programs: an edit is made to a model in a scratch copy, the
  development is rebuilt and the failing theorems are recorded in `seeded/LOG.jsonl`. Theorems that
  survived an edit that falsifies their English claim were tightened.

## 2. Trusted base

* The Coq 8.16.1 kernel, including `vm_compute` for closed computations.
* Axioms of the standard library only. `Print Assumptions` stands beneath each theorem:
  * theorems over `nat`, `Z` and lists: none ("Closed under the global context");
  * theorems over real and complex numbers: `ClassicalDedekindReals.sig_forall_dec`,
    `ClassicalDedekindReals.sig_not_dec`, `FunctionalExtensionality.functional_extensionality_dep`
    (the axioms of the standard library's real numbers), and `Classical_Prop.classic` where lemmas of
    `Rtrigo`, `Ratan`, `Ranalysis` or `Rpower` that use it are involved;
  * a checker that walks over the compiled libraries also reports the sealed constants of the standard
    library's modules `Rdefinitions.RbaseSymbolsImpl`, `Rdefinitions.RinvImpl` and
    `ssr.ssrunder.Under_rel`: these are opaque implementations of module signatures in the standard
    library, not axioms, and `Print Assumptions` does not list them.

  No axiom of our own, no axiom of any other library, no module functor of our own.
* The reading of the python code recorded in the comments of the `*Model.v` files.
* The behaviour of third party code, taken from its documentation:
  * numpy: slices clamp, `full` takes the dtype of its fill value, in-place integer addition wraps, views
    alias, `random.choice` checks its probabilities and searches the cumulative sums, division by zero of
    numpy numbers gives infinities or nan (of python numbers: an exception);
  * networkx >= 2.3: `topological_sort` is a generator (nothing runs until it is consumed);
  * TensorFlow 1.x and Keras: layers are the mathematical functions their documentation gives;
    `fit_generator(workers=0)` fetches a batch, trains on it, then calls `on_batch_end` of the callbacks in
    list order, and likewise at epoch ends; a loss is averaged over the mini batch; `load_weights` and
    `save_weights` read and write one file; attributes of a model that are not set raise AttributeError;
  * horovod: an all-reduce returns the mean over the workers;
  * NetKet: an arbitrary operator answering `get_conn`.
* Floating point numbers are exact real or complex numbers unless the property is about finite precision:
  32 bit integer wrap-around (C02, C36), integer truncation (C20) and the binary32 mask (C19) are modelled
  exactly; C62 has numpy's infinities and nan.
* Random numbers are arguments (uniform numbers, proposals); probabilities are lengths or volumes of sets
  of uniform numbers, or finite sums.

## 3. Properties

For every property: the code it is about, the file with its theorems, the model files those theorems speak about, how it is proved, the theorems, and what is simplified or left out.

### C01 Integer/bit-string codec round trip

decimal_to_binary(d, n) followed by binary_to_decimal returns d for every d < 2^n, and every length-n string over the chosen alphabet ({-1,+1} or {0,1}) is produced by exactly one d < 2^n.

* Ranges over: every number of bits n, every d below 2^n, both alphabets.
* Code: `exact/utils.py` (decimal_to_binary, binary_to_decimal, fsum).
* Files: `ExactUtilsProps.v`; model: `ExactUtilsModel.v`.
* Modelled and proved: `decimal_to_binary` and `binary_to_decimal` as loops over bits. Induction on the number of bits; round trips in both directions give the bijection; the positional value is given separately.
* Status: proved. Theorems: `C01_decode_encode`, `C01_encode_decode`, `C01_bijection`, `C01_digits`, `C01_positional`.
* Scope: Round trips in both directions, bijection, digits against Z.testbit.

### C02 Array codec agrees with the scalar codec, and where its 32 bit result stops being exact

Row by row the array functions give exactly what the scalar functions give as long as the index fits a signed 32 bit integer and no pre-filled output buffer is supplied; with 32 or more bits, or with a pre-filled buffer, the returned number differs from the encoded one.

* Ranges over: every batch of rows, every row length, every buffer content.
* Code: `exact/utils.py` (binary_array_to_decimal_array, decimal_array_to_binary_array).
* Files: `ExactUtilsProps.v`; model: `ExactUtilsModel.v`.
* Modelled and proved: Array versions with explicit signed 32 bit wrap and output buffer. Row-wise equality with the scalar version because the wrap is the identity below 2^31; witnesses at 32 bits and for a dirty buffer.
* Status: proved. Theorems: `C02_encode_array`, `C02_decode_array`, `C02_decode_array_general`, `C02_decode_overflow_refuted`, `C02_dirty_buffer_refuted`.
* Scope: Exact for at most 31 columns and fresh buffers; refuted for 32 columns (int32 wrap) and for pre-filled buffers.

### C03 Tabulating a model over the whole Hilbert space and looking it up again gives the model back

vector_to_machine applied to to_log_wave_function_vector(model) returns the model's own value on every +-1 configuration whenever the (clamped) batch size divides 2^n; when it does not divide, the tabulation fails with a shape error instead of returning a wrong vector. A vector of NetKet that is converted gives a machine with the amplitude of NetKet's number for each configuration, and keeps its entries up to their order when the numbering is a bijection; for Hilbert spaces that leave out configurations the conversion raises.

* Ranges over: every model, every n, every batch size, every configuration.
* Code: `exact/utils.py` (to_log_wave_function_vector, vector_to_machine, binary_array_to_decimal_array, netket_vector_to_exact_variational_vector).
* Files: `ExactUtilsProps.v`, `ExactVectorProps.v`; model: `ExactUtilsModel.v`, `ExactVectorModel.v`, `IsingModel.v`.
* Modelled and proved: The tabulation loop with slice assignment and the lookup through the array codec. Invariant: a prefix of the table is filled; composition with C01. The conversion of NetKet vectors (`ExactVectorModel.v`) is such a table for the function that looks up NetKet's number.
* Status: proved. Theorems: `C03_table`, `C03_lookup_after_table`, `C03_lookup_short_table`, `C03_lookup_33_refuted`, `C03_nondividing_batch_fails`, `C03_zero_batch_fails`, `C03_netket_vector`, `C03_netket_vector_restricted_refuted`.
* Scope: Table contents, lookup after table (up to 32 spins; from 33 on the lookup ignores later sites, _refuted), and failure for non dividing batch sizes.

### C04 Log-sum-exp helpers compute the true norm

complex_norm_log_fsum_exp(v) is the logarithm of sum_i |exp v_i| for every non-empty vector of complex numbers (so applied to 2 log psi it is log of the squared norm, and subtracting it gives normalised log probabilities); the shift by the maximum keeps the argument of the logarithm between 1 and the length of v.

* Ranges over: every non-empty vector of complex log amplitudes.
* Code: `exact/utils.py` (complex_norm_log_fsum_exp, log_fsum_exp).
* Files: `AutoregressiveProps.v`; model: `AutoregressiveModel.v`, `OrderingModel.v`.
* Modelled and proved: Log-sum-exp over R with the shift by the maximum. Algebra; that the maximum is attained gives the bounds that exclude overflow.
* Status: proved. Theorems: `C04_complex_norm`, `C04_real_version`, `C04_shift_bounds`, `C04_normalises`, `C04_empty_raises`.
* Scope: Exact arithmetic; includes the bounds on the shifted argument and the normalisation use.

### C05 Raster ordering visits every site once, in row-major order

raster(shape) flattened by to_flat_ordering is 0,1,...,prod(shape)-1.

* Ranges over: every shape, any number of dimensions.
* Code: `deepar/ordering/raster.py` (raster); `deepar/ordering/flat.py` (to_flat_ordering).
* Files: `OrderingProps.v`; model: `OrderingModel.v`.
* Modelled and proved: n-dimensional product of ranges and Horner flattening. Induction on the shape.
* Status: proved. Theorems: `C05_raster_flat`, `C05_raster_is_ordering`, `C05_flat_index`.
* Scope: Any number of dimensions.

### C06 Zigzag ordering is a walk that visits every cell of the square exactly once

For an N x N grid with N >= 2, zigzag returns a list that contains every cell exactly once, starts at the corner (0,0) and ends at the opposite corner, and consecutive cells are neighbours (including diagonal ones). Non-square grids are rejected. For N = 1 the returned list contains a cell outside the grid.

* Ranges over: every N.
* Code: `deepar/ordering/zigzag.py` (zigzag); `deepar/ordering/moves.py` (right, down, up_right, down_left).
* Files: `OrderingProps.v`; model: `OrderingModel.v`.
* Modelled and proved: The while loop with its move state. A rank function of a cell in zigzag order; invariant: the k-th element has rank k; the rank is injective on the grid.
* Status: proved. Theorems: `C06_zigzag_visits_every_cell`, `C06_zigzag_rejects_non_squares`, `C06_zigzag_single_cell_refuted`.
* Scope: All N >= 2; N = 1 refuted (walk leaves the grid); non squares rejected.

### C07 Inverse ordering undoes the ordering

For every ordering that visits every site exactly once, gathering by to_flat_ordering and then by to_flat_inverse_ordering (or the other way round) is the identity on every tensor. An ordering passed as an iterator, such as the raster ordering itself, is rejected with a TypeError.

* Ranges over: every shape, every permutation of its sites, every tensor.
* Code: `deepar/ordering/flat.py` (to_flat_ordering, to_flat_inverse_ordering); `deepar/layers/gathering.py` (GatherLayer).
* Files: `OrderingProps.v`; model: `OrderingModel.v`.
* Modelled and proved: Flat ordering, inverse built by assignments, gather. Permutation lemmas.
* Status: proved. Theorems: `C07_gather_then_inverse`, `C07_inverse_then_gather`, `C07_gather_meaning`, `C07_inverse_of_raster_iterator_refuted`.
* Scope: All shapes and all orderings given as lists; iterator argument refuted (TypeError).

### C08 Convolution topology agrees with the convolution layer

For a 'valid' strided dilated convolution in any number of dimensions, applying the layer and reading one output location equals applying the topology's single-location evaluation to the values at the locations it lists as dependencies, and all of these lie inside the input.

* Ranges over: every rank, kernel size, stride, dilation, input size, weights, input values, output location.
* Code: `deepar/graph_analysis/convolutional_topology.py` (ConvolutionalTopology).
* Files: `TopologyProps.v`; model: `OrderingModel.v`, `TensorModel.v`, `TopologyModel.v`.
* Modelled and proved: Convolution layers as functions on n-dimensional index lists and the topology as a function from location to dependencies. The value computed from the dependencies is the value of the layer, for every kernel, stride, dilation and padding mode.
* Status: proved. Theorems: `C08_convolution_agrees`.
* Scope: Any rank, stride, dilation, weights, over any numbers; the kernel is given by its row-major data.

### C09 Padding topologies agree with the padding layers

Zero padding: the topology yields the single shifted location when the output location lies in the copied region and no dependency (value zero) otherwise. Periodic padding: topology and layer agree whenever the padding does not exceed the size of the dimension; beyond that they disagree.

* Ranges over: every rank, every shape, every asymmetric padding, every location.
* Code: `deepar/graph_analysis/padding_topology.py` (PaddingTopology, PeriodicPaddingTopology); `deepar/layers/padding.py` (PeriodicPadding).
* Files: `TopologyProps.v`; model: `OrderingModel.v`, `TensorModel.v`, `TopologyModel.v`.
* Modelled and proved: Zero and periodic padding layers and topologies. Index arithmetic for every dimension; witness for periodic padding larger than the dimension.
* Status: proved. Theorems: `C09_zero_padding_agrees`, `C09_periodic_padding_agrees`, `C09_periodic_padding_large_refuted`.
* Scope: Zero padding and periodic padding of any rank; periodic padding with larger non-multiple prefixes refuted.

### C10 Shift, concatenation, broadcast, gather and reshape topologies agree with their layers

For DownShift/RightShift, Concatenate, broadcasting one-to-one layers and GatherLayer with a non negative axis the dependency location reported by the topology is the location whose value the layer puts at the output location. Negative axes of GatherLayer, negative spatial axes of Concatenate and every Reshape used through the dependency graph break this.

* Ranges over: every shape, axis, index list and location.
* Code: `deepar/graph_analysis/masking_topology.py` (DownShiftTopology, RightShiftTopology); `deepar/graph_analysis/concatenate_topology.py` (ConcatenateTopology); `deepar/graph_analysis/one_to_one_topology.py` (OneToOneTopology); `deepar/graph_analysis/gathering_topology.py` (GatherTopology); `deepar/graph_analysis/reshape_topology.py` (ReshapeTopology).
* Files: `TopologyProps.v`; model: `OrderingModel.v`, `TensorModel.v`, `TopologyModel.v`.
* Modelled and proved: Shift, concatenate, broadcast, gather and reshape layers and topologies. Direct computation per family, row-major flattening for reshape; witnesses for each broken branch.
* Status: proved. Theorems: `C10_shift_agrees`, `C10_concatenate_beyond`, `C10_concatenate_spatial_agrees`, `C10_concatenate_features_agrees`, `C10_concatenate_positive_features_refuted`, `C10_concatenate_negative_refuted`, `C10_concatenate_negative_3d_refuted`, `C10_broadcast_agrees`, `C10_merge_lower_rank_raises`, `C10_expand_input_dim`, `C10_one_hot_refuted`, `C10_gather_agrees`, `C10_gather_negative_refuted`, `C10_gather_features_refuted`, `C10_reshape_agrees`, `C10_reshape_leading_unknown_agrees`, `C10_reshape_keeps_row_major`, `C10_reshape_inner_unknown_refuted`, `C10_reshape_in_graph_refuted`.
* Scope: Shift, concatenate, broadcast, gather, reshape; negative axes, feature axes by positive number, one-hot layers, inner -1 and Reshape inside the graph refuted.

### C11 A model whose conditionals depend on themselves is rejected

assert_valid_probabilistic_model raises when the sampling graph of the model has a cycle. (The faithful model shows it does not: the topological sort is never run.) Running the sort does detect exactly the cyclic graphs.

* Ranges over: every finite dependency graph.
* Code: `deepar/graph_analysis/dependency_graph.py` (assert_valid_probabilistic_model, DependencyGraph).
* Files: `GraphProps.v`; model: `AutoregressiveModel.v`, `GraphModel.v`, `OrderingModel.v`, `TensorModel.v`, `TopologyModel.v`.
* Modelled and proved: The dependency graph construction, networkx's generator as a suspended computation, Kahn's algorithm. The suspended call returns for every graph; the algorithm fails iff there is a cycle (invariant: the processed nodes are closed under predecessors).
* Status: proved. Theorems: `C11_never_raises_refuted`, `C11_cyclic_model_accepted_refuted`, `C11_sort_detects_cycles`, `C11_fast_sampler_rejects_cycles`.
* Scope: Kahn sort detects exactly the cyclic graphs, for every graph; assert_valid_probabilistic_model never runs it, so the claim about it is refuted.

### C12 The fast (graph based) sampler draws the same sample as the site-by-site sampler

Given the same random choice at each site, evaluating the dependency graph in any topological order produces exactly the configuration that repeatedly evaluating the whole network site by site produces, and the log-probabilities used at each site are those the network assigns to the final configuration.

* Ranges over: every acyclic sampling graph, every topological order, every network, every random choice.
* Code: `deepar/samplers/fast_autoregressive.py` (FastAutoregressiveSampler); `deepar/samplers/autoregressive.py` (AutoregressiveSampler); `deepar/graph_analysis/dependency_graph.py` (DependencyGraph).
* Files: `GraphProps.v`; model: `AutoregressiveModel.v`, `GraphModel.v`, `OrderingModel.v`, `TensorModel.v`, `TopologyModel.v`.
* Modelled and proved: Evaluation of the graph along a topological order and the site-by-site sampler, with the same choices. Both compute the unique solution of the layer equations (induction along the order).
* Status: proved. Theorems: `C12_any_topological_order`, `C12_fast_sampler`, `C12_graph_order_autoregressive`, `C12_fast_equals_site_by_site`.
* Scope: Every model whose topologies agree with its layers, every topological order, every draw function; equality with the site by site sampler.

### C13 The autoregressive sampler samples exactly from |psi|^2

With the +-1 encoding the probability of returning a configuration is the product of the conditional probabilities the network assigns to that configuration, i.e. exp(2 Re log psi). With the 0/1 encoding the sampler assigns value 1 the probability of category 0.

* Ranges over: every autoregressive network, every ordering, every configuration.
* Code: `deepar/samplers/autoregressive.py` (AutoregressiveSampler); `deepar/layers/one_hot.py` (PlusMinusOneToOneHot, ToOneHot); `samplers/__init__.py` (AutoregressiveSampler).
* Files: `AutoregressiveProps.v`; model: `AutoregressiveModel.v`, `OrderingModel.v`.
* Modelled and proved: The sampler as a program over uniform numbers. The set of random numbers leading to a configuration is a box; its volume is the product of conditionals, by induction over the ordering.
* Status: proved. Theorems: `C13_samples_born_probability`, `C13_always_returns`, `C13_zero_base_draws_category_0`, `C13_zero_base_refuted`, `C13_three_dimensions_raise`, `C13_outside_raises`.
* Scope: The random numbers leading to a configuration form a box of volume |psi|^2, 1D and 2D inputs, every ordering; 0/1 encoding refuted.

### C14 Number of samples returned by the samplers

FastAutoregressiveSampler returns exactly batch_size samples when mini_batch_size divides batch_size, and strictly fewer otherwise; Ensemble returns the concatenation of its members' batches and the sum of their sizes.

* Ranges over: every batch size and mini batch size, every history of calls.
* Code: `deepar/samplers/fast_autoregressive.py` (__next__); `deepar/samplers/base_sampler.py` (_set_batch_size); `deepar/samplers/ensemble.py` (Ensemble).
* Files: `TrainingProps.v`; model: `TrainingModel.v`.
* Modelled and proved: The batching loop and `Ensemble`. Division lemmas.
* Status: proved. Theorems: `C14_fast_sampler_count`, `C14_full_batch_refuted`, `C14_ensemble_count`, `C14_ensemble_concatenates`, `C14_ensemble_unequal_raises`.
* Scope: Exact number of samples for all sizes; full batch refuted when the mini batch size does not divide; ensembles.

### C15 The 1D convolutional machines are autoregressive

The conditional output of SimpleConvNetAutoregressive1D (and the complex valued version) at site i is unchanged when inputs at sites >= i change.

* Ranges over: every depth, kernel size, dilation schedule, weights, activation, chain length, pair of inputs.
* Code: `machines/simple_conv_net_autoregressive_1D.py` (SimpleConvNetAutoregressive1D); `machines/complex_values_simple_conv_net_autoregressive_1D.py` (ComplexValuesSimpleConvNetAutoregressive1D).
* Files: `MachinesProps.v`; model: `AutoregressiveModel.v`, `MachinesModel.v`, `OrderingModel.v`, `TensorModel.v`.
* Modelled and proved: The 1D machines assembled layer by layer for arbitrary weights and activations. Non-interference by induction over layers with a receptive field invariant; then C18.
* Status: proved. Theorems: `C15_real_machine_causal`, `C15_complex_machine_causal`, `C15_real_machine_normalised`, `C15_complex_machine_normalised`.
* Scope: Whole network as a function of the input, arbitrary weights and activation, with the shapes it produces; normalisation follows with C18.

### C16 The 2D convolutional machine is autoregressive in raster order

The conditional output of ConvNetAutoregressive2D at (h,w) is unchanged when any input at (h,w) or later in raster order changes.

* Ranges over: every depth, odd kernel size, weights, activation, grid size, pair of inputs.
* Code: `machines/conv_net_autoregressive_2D.py` (ConvNetAutoregressive2D).
* Files: `MachinesProps.v`; model: `AutoregressiveModel.v`, `MachinesModel.v`, `OrderingModel.v`, `TensorModel.v`.
* Modelled and proved: The 2D machine with its vertical and horizontal stacks. Receptive field invariants for both stacks, induction over residual blocks.
* Status: proved. Theorems: `C16_machine_causal`, `C16_machine_normalised`, `C16_even_kernel_raises`.
* Scope: Whole network, odd kernel sizes; even kernel sizes raise for every grid.

### C17 The custom ordering machine is autoregressive in the ordering it is given

The conditional output of SimpleCustomOrderingAutoregressive at the site visited k-th depends only on sites visited before.

* Ranges over: every shape, every permutation of the sites, every inner causal network.
* Code: `machines/simple_custom_autoregressive_ordering.py` (SimpleCustomOrderingAutoregressive).
* Files: `MachinesProps.v`; model: `AutoregressiveModel.v`, `MachinesModel.v`, `OrderingModel.v`, `TensorModel.v`.
* Modelled and proved: Gather, 1D machine, inverse gather. C15 transported along the permutation of C07.
* Status: proved. Theorems: `C17_machine_causal`, `C17_machine_normalised`.
* Scope: Whole network, every shape and every ordering of it.

### C18 Autoregressive wave functions are normalised

The sum over all configurations of |psi|^2 of an auto-normalised autoregressive machine is exactly 1 (exact arithmetic).

* Ranges over: every number of sites, every ordering, every conditional network that is autoregressive in it.
* Code: `machines/abstract_machine.py` (AutoNormalizedAutoregressiveMachine, AutoregressiveMachine); `deepar/layers/autoregressive.py` (normalize_in_log_space, combine_autoregressive_conditionals).
* Files: `AutoregressiveProps.v`; model: `AutoregressiveModel.v`, `OrderingModel.v`.
* Modelled and proved: Normalised conditionals and their combination over C. The sum over configurations factorises by induction over the ordering.
* Status: proved. Theorems: `C18_normalised`, `C18_normalised_probability`.
* Scope: Every ordering, every autoregressive conditional network; also probabilistic models with K categories.

### C19 EqualUpDownSpins keeps exactly the zero magnetisation sector

In exact arithmetic, for an even number of sites, a configuration avoids every suppressed conditional iff it has as many up as down spins, and no site ever has both options suppressed. In 32 bit floating point the additive mask turns every unsuppressed entry into NaN.

* Ranges over: every even number of sites, every configuration.
* Code: `layers/spins_invariants.py` (equal_up_down_spins_function, EqualUpDownSpins).
* Files: `EqualSpinsProps.v`; model: `AutoregressiveModel.v`, `EqualSpinsModel.v`, `OrderingModel.v`.
* Modelled and proved: Cumulative counts and the additive mask in exact arithmetic and in binary32 (SpecFloat). Counting invariant along raster order; evaluation of the casts for the refutations.
* Status: proved. Theorems: `C19_zero_magnetisation`, `C19_odd`, `C19_entries`, `C19_machine_normalised`, `C19_weight_in_sector`, `C19_zigzag_refuted`, `C19_float32_mask_refuted`, `C19_float32_nan_refuted`.
* Scope: Exact arithmetic: sector characterised for even and odd numbers of sites, entries, normalisation and bound on the weight outside the sector. Code as written: with zigzag order the mask is not autoregressive (refuted), and in binary32 the mask is NaN wherever it should be zero, so log psi is NaN everywhere (refuted, SpecFloat).

### C20 Ising connections are the rows of the transverse field Ising matrix

For every configuration s and target t the sum of the matrix elements returned for connections equal to t is <s|H|t> of H = -J sum zz - h sum x with the grid's bonds; connection 0 is s itself and the number of connections is sites+1. With an integer h the diagonal is truncated to an integer.

* Ranges over: every 1D/2D shape, open or periodic boundary, couplings, batch.
* Code: `operators/ising.py` (Ising.find_conn).
* Files: `IsingProps.v`; model: `IsingModel.v`.
* Modelled and proved: `find_conn` with padding, buffers and dtype rules. Comparison with matrix elements defined from the bonds.
* Status: proved. Theorems: `C20_matrix_row`, `C20_symmetric`, `C20_integer_field_truncates`, `C20_integer_field_refuted`, `C20_single_site_ring_refuted`, `C20_more_than_two_dimensions_raise`.
* Scope: 1D and 2D, both boundaries; integer field and one-site periodic chain refuted. Exact arithmetic (the code accumulates in float32).

### C21 Heisenberg connections are the rows of the Heisenberg matrix and conserve magnetisation

Used connections exchange two unequal neighbouring spins, hence conserve the total spin; their matrix element is -2 (or 2 without rotation), the diagonal is the sum of neighbour products, unused connections have matrix element 0, and connectivity is symmetric so the matrix is Hermitian.

* Ranges over: every 1D/2D shape, boundary condition, configuration.
* Code: `operators/heisenberg.py` (HeisenbergFindConn.find_conn, HeisenbergFindConn.calc_conn_and_mel).
* Files: `HeisenbergProps.v`; model: `HeisenbergModel.v`.
* Modelled and proved: `find_conn` as nested loops writing a shared buffer. Bond by bond comparison with the exchange form of the Hamiltonian.
* Status: proved. Theorems: `C21_matrix_row`, `C21_symmetric`.
* Scope: Row of the Heisenberg matrix after any call history; 1D and 2D, both boundaries, both rotations.

### C22 Heisenberg.find_conn is a function of its argument

The values returned depend only on the sample, not on earlier calls. But earlier results do not survive: they are overwritten by a later call with the same batch size, and on a 1D chain the first call changes the operator's declared state shape.

* Ranges over: every history of calls with any batch sizes.
* Code: `operators/heisenberg.py` (Heisenberg.find_conn, HeisenbergFindConn.__init__).
* Files: `HeisenbergProps.v`; model: `HeisenbergModel.v`.
* Modelled and proved: Buffers and the shape attribute as state; aliasing as references to the buffer. Invariant over call histories.
* Status: proved. Theorems: `C22_history_independent`, `C22_results_alias`, `C22_snapshot_refuted`, `C22_shape_mutation`.
* Scope: History independence, aliasing of results per batch size (snapshot claim refuted by witness), shape mutation of chains.

### C23 Heisenberg.random_states yields states of the requested magnetisation

random_states succeeds exactly when the number of sites is even and total_sz is 0, and then every returned state has total spin 0; every other request raises. use_state accepts every state without a total_sz, and otherwise exactly the states whose sum is total_sz; the states that are drawn are accepted, connections never lead from accepted to other states or back, and there are accepted states for every sum that n spins can have, although only those of sum 0 are ever drawn.

* Ranges over: every shape, every total_sz, every permutation drawn.
* Code: `operators/heisenberg.py` (Heisenberg.random_states, Heisenberg.use_state, Heisenberg.find_conn).
* Files: `HeisenbergProps.v`, `HeisenbergStateProps.v`; model: `HeisenbergModel.v`, `HeisenbergStateModel.v`.
* Modelled and proved: `random_states` with explicit draws. Permutations keep the sum. `use_state` is in `HeisenbergStateModel.v`; that connections keep it is read off C21.
* Status: proved. Theorems: `C23_zero_magnetisation`, `C23_other_requests_raise`, `C23_use_state_conserved`, `C23_use_state`.
* Scope: Shuffles are arbitrary permutations.

### C24 J1-J2 edge list is the square lattice with diagonals, each bond once

The coloured edges produced for an L1 x L2 lattice are a permutation of: for every site its right and down neighbours (colour 1) and its two forward diagonal neighbours (colour 2), with wrap around iff periodic; there are at most 4 per site so the declared maximal number of connections is never exceeded. Every bond occurs once on open grids and on periodic grids with sides of at least 3; on smaller periodic grids bonds are repeated.

* Ranges over: every L1, L2 >= 1, both boundary conditions.
* Code: `operators/j1j2.py` (j1j2_two_dim_operator).
* Files: `J1J2Props.v`; model: `J1J2Model.v`.
* Modelled and proved: Nested loops producing coloured edges. Permutation of the specification list; injectivity of bonds for uniqueness.
* Status: proved. Theorems: `C24_edges`, `C24_each_bond_once`, `C24_each_bond_once_refuted`, `C24_periodic_count`, `C24_declared_connections`.
* Scope: Permutation of the independently specified bonds; uniqueness for open grids and periodic grids with sides >= 3 (2 x 3 refuted).

### C25 Wrapped NetKet operators yield padded but equivalent connections

After any history of calls, the padded batch contains for each sample exactly the connections NetKet reported plus entries with matrix element 0; connection 0 is the sample; the padding size never shrinks. The code path for the old NetKet interface always fails. Without the line that raises, the old path would agree with the newer one when the sample is reported first; otherwise its exchange of two rows overwrites the first reported state, for every sample of the batch, because the temporary copy is a view. Reports with more lists of changes than the arrays have rows give IndexError.

* Ranges over: every NetKet operator, batch and call history.
* Code: `operators/netket_operator.py` (NetketOperatorWrapper, NetketOperatorWrapper.old_netket_find_conn).
* Files: `NetketOldProps.v`, `NetketProps.v`; model: `NetketModel.v`, `NetketOldModel.v`.
* Modelled and proved: The wrapper with growing padding width around an arbitrary `get_conn`. Invariant over call histories. The whole old path is in `NetketOldModel.v`; its loop keeps the invariant that the columns written so far are the padded reports, and every restart leaves fewer samples that do not fit.
* Status: proved. Theorems: `C25_old_interface_raises_refuted`, `C25_old_interface_repaired`, `C25_old_interface_exchange_refuted`, `C25_old_interface_batch_refuted`, `C25_old_interface_bad_reports`, `C25_old_interface_too_many`, `C25_padded_rows`, `C25_constructor`, `C25_equivalent`, `C25_sample_not_first_raises`, `C25_first_bad_sample`, `C25_empty_batch`, `C25_old_interface_refuted`.
* Scope: NetKet is an arbitrary function reporting the sample first; old interface always raises.

### C26 Both local energy evaluation paths compute sum_k H_sk psi(s_k)/psi(s)

The balanced and the unbalanced evaluation path return the same list of local energies, equal to the definition, for every operator whose connection 0 is the sample itself and is marked as used and whose unused connections have matrix element 0.

* Ranges over: every operator, wave function, batch and pattern of used connections.
* Code: `observables/monte_carlo/operator.py` (Observable.local_values, local_values_optimized_for_balanced_local_connections, local_values_optimized_for_unbalanced_local_connections).
* Files: `ObservableProps.v`; model: `HeisenbergModel.v`, `IsingModel.v`, `ObservableModel.v`.
* Modelled and proved: Both evaluation paths (rectangular and flattened with indices). List partition lemmas and algebra of complex exponentials.
* Status: proved. Theorems: `C26_both_paths`, `C26_matrix`, `C26_ising`, `C26_heisenberg`, `C26_unused_element_refuted`, `C26_no_used_connection_raises`.
* Scope: Every operator whose arrays are rectangular with the sample as used connection 0 and vanishing unused elements; instantiated for the Ising and Heisenberg operators; without the last hypothesis refuted; exact arithmetic.

### C27 Zero variance principle

If the wave function is an eigenstate of the operator then every local energy equals the eigenvalue and the reported variance is 0; in general the reported variance is non negative.

* Ranges over: every operator and wave function, every batch.
* Code: `observables/monte_carlo/observable.py` (BaseObservable.estimate); `observables/monte_carlo/operator.py` (Observable).
* Files: `ObservableProps.v`; model: `HeisenbergModel.v`, `IsingModel.v`, `ObservableModel.v`.
* Modelled and proved: Local energies of an eigenstate and the variance formula. Algebra of finite sums.
* Status: proved. Theorems: `C27_eigenstate`, `C27_variance_nonneg`, `C27_converse_refuted`.
* Scope: Eigenstate gives constant local values and zero variance; the converse is refuted because imaginary parts are ignored.

### C28 Loss coefficients are centred and distribute over workers

The coefficients returned for a batch sum to zero, so adding a constant to log psi has no gradient. Claimed for several workers: the average of the workers' gradients equals the gradient computed on the union of their batches. False: for equal batch sizes it is that gradient times the number of workers, for unequal sizes the subtracted energy is not the mean over the union and the coefficients are not centred.

* Ranges over: every batch, every number of workers.
* Code: `optimization/variational_monte_carlo.py` (VariationalMonteCarlo); `optimization/horovod_variational_monte_carlo.py` (HorovodVariationalMonteCarlo); `optimization/loss.py` (loss_for_energy_minimization).
* Files: `ObservableProps.v`; model: `HeisenbergModel.v`, `IsingModel.v`, `ObservableModel.v`.
* Modelled and proved: Loss coefficients with and without horovod. Algebra of finite sums.
* Status: proved. Theorems: `C28_centred`, `C28_workers`, `C28_equal_to_union_refuted`, `C28_unequal_batches_refuted`.
* Scope: Centred coefficients proved; the average over workers is the number of workers times the union loss, so the literal equality is refuted, as is unequal batch sizes.

### C29 Mini batches partition the batch

When mini_batch_size divides batch_size, every group of update_params_frequency consecutive mini batches is one whole batch in order, each sample used exactly once with its own coefficient; when it does not divide, the update frequency is larger than the number of mini batches served per batch and the tail of each batch is never served.

* Ranges over: every batch size, mini batch size, number of steps.
* Code: `optimization/mini_batch_generator.py` (MiniBatchGenerator).
* Files: `TrainingProps.v`; model: `TrainingModel.v`.
* Modelled and proved: The mini batch generator as a state machine. Invariant over all steps.
* Status: proved. Theorems: `C29_mini_batches`, `C29_partition`.
* Scope: Every mini batch of every batch, all sizes; partition when the mini batch size divides.

### C30 Gradient accumulation applies the wrapped optimizer once every f steps with exactly the last f gradients

Started fresh with frequency f, after k*f+r steps the wrapped optimizer was applied k times, each time to the sum (or mean) of the f gradients of that window, parameters do not move in between; changing the frequency in the middle applies the next update after fewer gradients unless the step count is a multiple of the new frequency.

* Ranges over: every sequence of gradients and frequency changes.
* Code: `optimizers/accumulate_gradient_optimizer.py` (convert_to_accumulate_gradient_optimizer).
* Files: `TrainingProps.v`; model: `TrainingModel.v`.
* Modelled and proved: The accumulating optimizer as a state machine wrapping an arbitrary optimizer. Invariant: the accumulated sum is that of the current window.
* Status: proved. Theorems: `C30_windows`, `C30_any_frequency`, `C30_short_window`.
* Scope: Any inner optimizer, both modes, any frequency change and allreduce; exact arithmetic.

### C31 Training with mini batches equals training with full batches

Composing the mini batch generator with gradient accumulation in mean mode produces exactly the parameter trajectory of the wrapped optimizer on full batches (mini batch size dividing the batch); in sum mode the gradients are larger by the factor update_params_frequency.

* Ranges over: every model gradient, wrapped optimizer, sizes and number of updates.
* Code: `optimizers/accumulate_gradient_optimizer.py` (convert_to_accumulate_gradient_optimizer); `optimization/mini_batch_generator.py` (MiniBatchGenerator); `optimization/loss.py` (loss_for_energy_minimization).
* Files: `TrainingProps.v`; model: `TrainingModel.v`.
* Modelled and proved: Both training loops. Simulation: f mini batch steps equal one full batch step.
* Status: proved. Theorems: `C31_mini_batch_training`.
* Scope: Any inner optimizer and batches that may depend on the weights; exact arithmetic.

### C32 Averaged weights are a convex combination of the visited weights

set_weights_ema stores the bias corrected exponential average: a combination of the weights after each applied update with non negative coefficients (1-d)d^(t-k)/(1-d^t) that sum to 1.

* Ranges over: every decay in (0,1), every number of updates >= 1, every weight trajectory.
* Code: `optimizers/accumulate_gradient_optimizer.py` (set_weights_ema).
* Files: `TrainingProps.v`; model: `TrainingModel.v`.
* Modelled and proved: The exponential average of weights. Induction over steps: weights are non negative and sum to one.
* Status: proved. Theorems: `C32_convex_combination`.
* Scope: Closed form of the corrected average, positive weights summing to one.

### C33 Exact energy is the Rayleigh quotient

The energy reported by exact enumeration is <psi|H|psi>/<psi|psi>, probabilities sum to one, the energy is real for Hermitian operators and lies between the smallest and largest eigenvalue bound, and it is unchanged by adding a constant to log psi. For a non Hermitian operator the complex conjugate is reported.

* Ranges over: every operator, every log amplitude vector, every batch size dividing 2^n.
* Code: `optimization/exact_variational.py` (ExactVariational, ExactObservable).
* Files: `ExactProps.v`; model: `ExactModel.v`, `HeisenbergModel.v`, `IsingModel.v`, `ObservableModel.v`.
* Modelled and proved: `ExactObservable` and `ExactVariational`: batch loops, padding of missing connections, log-sum-exp norm. The loops fill the tables of the definition; algebra of finite sums for the quotient.
* Status: proved. Theorems: `C33_rayleigh_quotient`, `C33_declared_too_small`, `C33_hermitian_real`, `C33_bounds`, `C33_constant_shift`, `C33_ising`, `C33_heisenberg`, `C33_non_hermitian_refuted`.
* Scope: Model of ExactObservable and ExactVariational in ExactModel.v: batch loops with slice assignment, padding of missing connections, int32 indices (at most 31 spins), log-sum-exp norm. The energy is the conjugate of the Rayleigh quotient (equal to it for Hermitian operators, refuted otherwise); independent of earlier evaluations; bounded by every bound of the quadratic form and by the largest absolute row sum; unchanged by a constant. Instantiated for the Ising and Heisenberg operators. Floats are reals.

### C34 Exact gradient coefficients give the true gradient of the energy

For every differentiable one-parameter family of log amplitudes the derivative of the energy equals the sum over states of 2 Re(coefficient_i * d log psi_i).

* Ranges over: every Hermitian operator and every differentiable family.
* Code: `optimization/exact_variational.py` (energy_grad_coefficients); `optimization/loss.py` (loss_for_energy_minimization).
* Files: `ExactProps.v`; model: `ExactModel.v`, `HeisenbergModel.v`, `IsingModel.v`, `ObservableModel.v`.
* Modelled and proved: The coefficients served by the exact generator. Derivative of the Rayleigh quotient with the standard library's `derivable_pt_lim`; the sum over a cycle is the whole loss.
* Status: proved. Theorems: `C34_gradient`, `C34_cycle_loss`.
* Scope: Derivative computed with derivable_pt_lim for arbitrary differentiable families; second theorem links it to the losses of the batches of one generator cycle (factor batch size because Keras averages).

### C35 Each cycle of the exact generator serves every basis state once

In every run of number_of_states/batch_size consecutive batches aligned to the cycle each basis state is served exactly once with the coefficient belonging to it, and the machine is re-evaluated once per cycle; batch sizes that do not divide the number of states are rejected.

* Ranges over: every number of spins, batch size, number of steps.
* Code: `optimization/exact_variational.py` (ExactVariational.to_generator, _set_batch_size).
* Files: `ExactProps.v`; model: `ExactModel.v`, `HeisenbergModel.v`, `IsingModel.v`, `ObservableModel.v`.
* Modelled and proved: The generator's batch loop. Invariant: cycle position and served prefix.
* Status: proved. Theorems: `C35_cycles`, `C35_batch_sizes`.
* Scope: Any number of cycles, machine changing at every step. The model reads the yielded coefficients at the time of the yield.

### C36 Exact samplers return configurations with probability |psi|^2/Z

The probability that the exact sampler returns a configuration is the normalised probability of that configuration, i.e. the index-to-configuration mapping used for sampling and the one used for probabilities coincide.

* Ranges over: every wave function, every configuration.
* Code: `samplers/exact_sampler.py` (ExactSampler, WaveFunctionSampler).
* Files: `ExactProps.v`; model: `ExactModel.v`, `HeisenbergModel.v`, `IsingModel.v`, `ObservableModel.v`.
* Modelled and proved: `numpy.random.choice` by its checks and the search in cumulative sums. Each configuration owns an interval whose length is its probability.
* Status: proved. Theorems: `C36_exact_sampler`, `C36_vector_sampler`, `C36_vector_sampler_refuted`, `C36_vector_sampler_raises`.
* Scope: Each configuration owns an interval of uniform numbers whose length is its probability. numpy.random.choice is modelled by its checks and the search in the cumulative sums. The vector sampler needs a normalised vector (refuted otherwise).

### C37 Metropolis with local, exchange and uniform moves satisfies detailed balance

pi(s) K(s->t) = pi(t) K(t->s) with pi = |psi|^2 for the one-sweep transition kernel, hence pi is stationary; exchange moves conserve the total spin; spins stay in {-1,+1}.

* Ranges over: every wave function, size and pair of configurations.
* Code: `samplers/metropolis_hastings.py` (MetropolisHastingsSymmetricProposal, MetropolisHastingsLocal, MetropolisHastingsExchange, MetropolisHastingsUniform).
* Files: `MetropolisProps.v`; model: `ExactModel.v`, `HeisenbergModel.v`, `IsingModel.v`, `MetropolisModel.v`, `ObservableModel.v`.
* Modelled and proved: Proposals as maps of the random draws, the acceptance test, whole sweeps. Each kernel is given by counting draws and lengths of acceptance intervals; involutions and case analysis on the ratio; uniqueness of the stationary measure by connectivity.
* Status: proved. Theorems: `C37_acceptance`, `C37_local`, `C37_exchange`, `C37_uniform`, `C37_kernel_unique`, `C37_local_only_stationary`, `C37_uniform_only_stationary`, `C37_exchange_conserves`, `C37_exchange_reducible`, `C37_chains_independent`.
* Scope: Transition matrices of the local, exchange and uniform samplers built from the code of one sweep: reversible and stationary for |psi|^2; uniqueness of the stationary measure (local, uniform); exchange conserves the total spin, hence is reducible; chains independent.

### C38 Metropolis with Hamiltonian moves satisfies detailed balance

The kernel that proposes a uniformly chosen used connection and corrects by the ratio of connection counts is reversible w.r.t. |psi|^2 for every operator with symmetric connectivity (Ising and Heisenberg have it).

* Ranges over: every wave function, every symmetric operator, all pairs of configurations.
* Code: `samplers/metropolis_hastings.py` (MetropolisHastingsHamiltonian).
* Files: `MetropolisProps.v`; model: `ExactModel.v`, `HeisenbergModel.v`, `IsingModel.v`, `MetropolisModel.v`, `ObservableModel.v`.
* Modelled and proved: Hamiltonian moves with the ratio of connection counts. Symmetry of the connections and case analysis.
* Status: proved. Theorems: `C38_hamiltonian`, `C38_ising`, `C38_heisenberg`, `C38_chains_independent`, `C38_stuck_chain`.
* Scope: Reversible for every operator with symmetric connectivity; the Ising operator and the Heisenberg operator in any state have it; chains independent.

### C39 Metropolis with global proposals targets |psi|^2

Claimed for every proposal sampler; false unless the proposal is uniform: a non uniform proposal with the symmetric acceptance rule does not leave |psi|^2 stationary.

* Ranges over: every proposal distribution and wave function.
* Code: `samplers/metropolis_hastings.py` (MetropolisHastingsGlobal).
* Files: `MetropolisProps.v`; model: `ExactModel.v`, `HeisenbergModel.v`, `IsingModel.v`, `MetropolisModel.v`, `ObservableModel.v`.
* Modelled and proved: Global proposals with an arbitrary proposal distribution. The stationary measure is computed; witness.
* Status: proved. Theorems: `C39_refuted`, `C39_stationary_measure`, `C39_iff_uniform`.
* Scope: Refuted: stationary measure is |psi|^2 times the proposal probability; |psi|^2 is stationary iff the proposal is uniform.

### C40 Metropolis bookkeeping

After any number of sweeps the cached wave function values are the values of the current configurations; the returned batch has batch_size rows laid out chain by chain; the acceptance ratio is the fraction of accepted proposals and lies in [0,1]; the number of warm-up sweeps is warm-up steps times unused samples (hence 0 for the default).

* Ranges over: every history of sweeps, every proposal, every number of chains.
* Code: `samplers/metropolis_hastings.py` (MetropolisHastingsSampler.__next__, MetropolisHastingsSampler._sweep, warn_up).
* Files: `MetropolisProps.v`; model: `ExactModel.v`, `HeisenbergModel.v`, `IsingModel.v`, `MetropolisModel.v`, `ObservableModel.v`.
* Modelled and proved: Batches, warm up, counters and cached amplitudes as a state machine. Invariant: cached values are those of the current configurations.
* Status: proved. Theorems: `C40_symmetric`, `C40_hamiltonian`, `C40_returns`, `C40_raises`, `C40_no_warm_up_by_default`.
* Scope: Cached values, layout, number of sweeps, acceptance ratio, constructor exceptions; no warm-up by default.

### C41 Open boundary symmetrisation is invariant under the dihedral group

The symmetrised wave function of make_2d_obc_invariants takes the same value on a configuration, its rotation by 90 degrees and its mirror image.

* Ranges over: every N x N grid, every wave function, every configuration.
* Code: `machines/ensemble.py` (make_2d_obc_invariants, build_symmetrization_ensemble); `layers/dihedral_4_invariants.py` (Rot90, FlipLeftRight).
* Files: `SymmetryProps.v`; model: `ComplexModel.v`, `OrderingModel.v`, `SymmetryModel.v`.
* Modelled and proved: The transformations as permutations of grid coordinates, the ensemble models. The orbit list of a transformed configuration is a permutation of the orbit list.
* Status: proved. Theorems: `C41_obc_invariant`, `C41_obc_rectangular`, `C41_obc_value`.
* Scope: make_2d_obc_invariants as rot90/flip/transpose on arrays; any batch, any model acting per example, both combinations. Rectangular grids too (a turned configuration lives on the turned grid). The value is the combination of the eight images. Exact arithmetic.

### C42 Periodic symmetrisation is invariant under translations

The symmetrised wave function of make_pbc_invariants takes the same value on all translations of a configuration, and, with the additional option, also on rotations and mirror images.

* Ranges over: every grid, every wave function, every translation.
* Code: `machines/ensemble.py` (make_pbc_invariants); `layers/transition_invariants.py` (Roll).
* Files: `SymmetryProps.v`; model: `ComplexModel.v`, `OrderingModel.v`, `SymmetryModel.v`.
* Modelled and proved: Translations as rolls. Same orbit argument.
* Status: proved. Theorems: `C42_pbc_invariant`, `C42_pbc_option`, `C42_pbc_value`.
* Scope: Any dimension and size, both combinations; tf.roll modelled axis by axis. The option for rotations and mirrors on any rectangular grid; it is rejected outside two dimensions. Exact arithmetic.

### C43 Symmetrisation preserves normalisation

With the probabilistic combination the symmetrised wave function has the same norm as the original one for every family of bijective transformations; global spin flip symmetrisation is invariant under the global flip.

* Ranges over: every finite family of bijections, every wave function.
* Code: `machines/ensemble.py` (probabilistic_ensemble_op, make_up_down_invariant); `layers/spins_invariants.py` (FlipSpins).
* Files: `SymmetryProps.v`; model: `ComplexModel.v`, `OrderingModel.v`, `SymmetryModel.v`.
* Modelled and proved: Both ways of combining amplitudes. Exchange of the sums over transformations and configurations.
* Status: proved. Theorems: `C43_norm_preserved`, `C43_symmetrisations_preserve_norm`, `C43_up_down`, `C43_errors`, `C43_dimensions`, `C43_average_norm_refuted`.
* Scope: Norm preserved for an arbitrary family of bijections and for the three library symmetrisations; flip invariance for both combinations; the plain average of amplitudes does not preserve the norm (witness). Norm for the option needs a square grid, because otherwise turned configurations leave the lattice.

### C44 RBMSym is translation invariant

log psi of RBMSym takes the same value on every cyclic translation of the input.

* Ranges over: every grid shape, number of filters, weights, configuration, translation.
* Code: `machines/rbm.py` (RBMSym); `layers/complex/dense.py` (TranslationInvariantComplexDense).
* Files: `SymmetryProps.v`; model: `ComplexModel.v`, `OrderingModel.v`, `SymmetryModel.v`.
* Modelled and proved: The translation invariant dense layer with stacked rolled kernels and the RBM. Reindexing of the sum over translations.
* Status: proved. Theorems: `C44_rbm_sym_invariant`, `C44_rbm_sym_value`, `C44_rbm_value`.
* Scope: RBMSym with arbitrary complex weights, any lattice dimension; also its closed formula (sum over filters and translations of lncosh) and the closed formula of the plain RBM. lncosh is the code function on complex numbers.

### C45 Complex layers implement complex arithmetic

The four-real-convolution construction is complex convolution; the stored (real, negated imaginary) weight pair starts at the value the initializer asked for; exp(lncosh z) = cosh z; exp(complex_log z) = z for z not 0, and complex_log(exp z) = z when the imaginary part lies in (-pi, pi], but not for every z.

* Ranges over: every real bilinear operation, every complex number with cosh z <> 0.
* Code: `layers/complex/tensorflow_ops.py` (keras_conv_to_complex_conv, lncosh, complex_log); `layers/complex/base_layer.py` (ComplexLayer.add_complex_weight).
* Files: `ComplexProps.v`; model: `ComplexModel.v`.
* Modelled and proved: Complex numbers as pairs of reals. Bilinearity, trigonometric identities, quadrants of atan2.
* Status: proved. Theorems: `C45_complex_convolution`, `C45_weight_starts_at_initializer`, `C45_gradient_tensors`, `C45_standard_initializer`, `C45_lncosh`, `C45_complex_log`, `C45_log_of_exp_refuted`, `C45_crelu`.
* Scope: Convolution is an arbitrary real-bilinear map. exp(complex_log z)=z for z<>0; complex_log(exp z)=z on the strip -pi < Im <= pi, refuted outside with a witness.

### C46 Complex optimizer moves the complex weights along the gradient

apply_complex_gradient adds lr times the complex gradient to every complex weight (as the layers read it); flattening the weights into a column and cutting the column back gives the same tensors.

* Ranges over: every list of shapes and values.
* Code: `optimizers/complex_values_optimizer.py` (ComplexValuesOptimizer.apply_complex_gradient); `optimizers/utils.py` (column_to_tensors, tensors_to_column).
* Files: `ReconfigurationProps.v`; model: `ComplexModel.v`, `ObservableModel.v`, `ReconfigurationModel.v`.
* Modelled and proved: Cutting and stacking of weight tensors, the update rule. Induction on the list of tensors.
* Status: proved. Theorems: `C46_cut_and_stack`, `C46_stack_and_cut`, `C46_lengths`, `C46_gradient_step`, `C46_direction`, `C46_needs_complex_layers`.
* Scope: Flattening and cutting are inverse for all shapes; the gradient step is proved for the complex weights as the complex layers read them (real variable, minus imaginary variable). Constraints of variables and get_config (which raises, super without call) are not modelled.

### C47 Conjugate gradient reports the true residual and its stopping reason

On every exit the returned residual is rhs - A x of the returned x, the iteration count is at most max_iter, and if it is smaller the residual norm is at most tol times the norm of rhs; in exact arithmetic a self-adjoint positive definite system of dimension n is solved, without a preconditioner or with any self-adjoint positive definite one, after at most n iterations.

* Ranges over: every linear operator, right hand side, tolerance, iteration limit.
* Code: `optimizers/stochastic_reconfiguration/linear_equations.py` (conjugate_gradient).
* Files: `ReconfigurationProps.v`; model: `ComplexModel.v`, `ObservableModel.v`, `ReconfigurationModel.v`.
* Modelled and proved: The conjugate gradient loop of the solver. Loop invariant: the stored residual is b - A x; the loop stops for the reported reason.
* Status: proved. Theorems: `C47_report`, `C47_terminates`, `C47_n_iterations`.
* Scope: Invariant over all runs for any linear operator and any preconditioner; n-step convergence in exact arithmetic without preconditioner or with any self-adjoint positive definite one.

### C48 The stochastic reconfiguration matrix is positive definite

S + shift*I built from the centred jacobian is Hermitian and positive definite for shift > 0, so the linear system has exactly one solution; the matrix free product equals the product with the explicit matrix. Without a shift the system can be singular; the iterative solver fails for a single weight; with compute_jvp_instead_of_full_jacobian the right hand side is not the gradient.

* Ranges over: every jacobian, batch size, vector, shift > 0.
* Code: `optimizers/stochastic_reconfiguration/optimizer.py` (ComplexValuesStochasticReconfiguration).
* Files: `ReconfigurationProps.v`; model: `ComplexModel.v`, `ObservableModel.v`, `ReconfigurationModel.v`.
* Modelled and proved: The matrix and right hand side of stochastic reconfiguration from the logarithmic derivatives, the explicit and the matrix free product, the update. Algebra of finite sums; positive definiteness gives uniqueness; finite termination of conjugate gradient by orthogonality.
* Status: proved. Theorems: `C48_matrix_is_covariance`, `C48_gradient_is_covariance`, `C48_products_agree`, `C48_positive_definite`, `C48_zero_shift_refuted`, `C48_iterative_solver`, `C48_single_weight_refuted`, `C48_descent`, `C48_update`, `C48_jvp_gradient_refuted`, `C48_jvp_gradient_value`.
* Scope: Derivatives enter as the matrix O of logarithmic derivatives; C79 proves that automatic differentiation computes the products with O. Refuted parts: a shift of zero, a model with a single weight in the iterative solver, and the right hand side computed with compute_jvp_instead_of_full_jacobian.

### C49 Per-example gradients are the gradients

The per-example gradient tensors for dense and convolution layers are the derivatives of the linear functional defined by the upstream gradient; for convolutions this needs dilation 1. With larger dilation, or complex layers whose input is not real, they are not.

* Ranges over: every layer shape, input, upstream gradient.
* Code: `utils/jacobian.py` (DenseJacobian, ConvJacobian).
* Files: `JacobianProps.v`; model: `JacobianModel.v`.
* Modelled and proved: Per-example gradients of dense and convolution layers as nested sums. Exchange of finite sums against the linear functional defined by the upstream gradient.
* Status: proved. Theorems: `C49_dense`, `C49_conv2d`, `C49_conv1d`, `C49_dilation_refuted`, `C49_complex_dense_real_input`, `C49_complex_conv2d_real_input`, `C49_complex_input_refuted`, `C49_supported`, `C49_unsupported`, `C49_order`, `C49_variables`.
* Scope: Derivatives are coefficients of the linear functional the layer defines; the gradient with respect to the layer output is given (automatic differentiation is not modelled). Refuted: dilation larger than one, and complex layers whose input is not real (the input is not conjugated).

### C50 A checkpoint survives a crash

Claimed: after a crash at any point the files on disk hold a weight file and an optimizer file saved together. False: a crash between (or during) the two writes leaves new weights with the old (or a truncated) optimizer file. Without a crash, loading gives back what was saved.

* Ranges over: every history of saves and every crash point.
* Code: `callbacks/checkpoint.py` (CheckpointByTime, load_optimizer_weights).
* Files: `CheckpointProps.v`; model: `CheckpointModel.v`.
* Modelled and proved: Two files, a crash after any number of writes. Case analysis over crash points.
* Status: proved. Theorems: `C50_no_crash`, `C50_crash_outcomes`, `C50_crash_refuted`.
* Scope: Two files with the states missing, partial, complete; all crash points of all histories classified; the claim that the two files belong together is refuted, the uncrashed case proved.

### C51 Checkpoint period

A save happens at a batch end iff at least the requested time passed since the previous save, so two periodic saves are never closer than the period, and training end always saves with the epoch counter advanced. The documented path containing an epoch field raises a KeyError.

* Ranges over: every sequence of batch end times and epochs.
* Code: `callbacks/checkpoint.py` (CheckpointByTime.on_batch_end, CheckpointByTime.on_train_end).
* Files: `CheckpointProps.v`; model: `CheckpointModel.v`.
* Modelled and proved: The time driven save with an arbitrary clock. Invariants over the sequence of Keras calls.
* Status: proved. Theorems: `C51_saves_iff`, `C51_spacing`, `C51_train_end`, `C51_current_epoch`, `C51_file_name`, `C51_file_name_errors`, `C51_documented_path_refuted`.
* Scope: Over every sequence of Keras calls with a clock that does not go back. The documented path with an epoch field is refuted (KeyError).

### C52 TensorBoard write rate

With a numeric update frequency n a batch end writes exactly when at least n samples were seen since the last such write, so these writes are at least n samples apart and fewer than n samples are ever pending; 'batch' writes at every batch end, 'epoch' at none. The documented rate is nevertheless exceeded, because every epoch end writes too.

* Ranges over: every sequence of batch sizes.
* Code: `callbacks/tensorboard.py` (TensorBoard.on_batch_end).
* Files: `CheckpointProps.v`; model: `CheckpointModel.v`.
* Modelled and proved: The counter of seen samples. Invariant over the sequence of batches.
* Status: proved. Theorems: `C52_rate`, `C52_batch_epoch`, `C52_documented_rate_refuted`.
* Scope: Over every sequence of batch sizes; the documented rate is refuted because of the epoch end writes.

### C53 Evaluation reports the mean of the logged statistics

evaluate returns for each key of the first step the mean over the steps when every step logs that key, and fails with KeyError when a later step misses one (which happens for validation callbacks with period > 1).

* Ranges over: every number of steps, every list of callbacks.
* Code: `evaluation/evaluate.py` (mean_logs, evaluate).
* Files: `CallbackProps.v`; model: `CallbackModel.v`, `CheckpointModel.v`, `IsingModel.v`, `TrainingModel.v`.
* Modelled and proved: Callbacks writing to dictionaries, the evaluation loop. Induction over the steps.
* Status: proved. Theorems: `C53_mean`, `C53_missing_key`, `C53_no_steps`, `C53_errors`, `C53_progress_bar`, `C53_default`, `C53_relative_error_refuted`, `C53_validation_period_refuted`.
* Scope: For every list of callbacks and number of steps; default callbacks with and without mini batches. The calls in train.py (relative error without true energy) and with validation period above 1 are refuted (KeyError).

### C54 Validation callbacks see one fresh batch per validation epoch

With the default callback list the validation generator is advanced exactly once, before any validation statistic is computed, in exactly the epochs divisible by the period; early stopping on bad eigen states fires exactly under its documented conditions. With a validation generator that yields mini batches, later validation epochs see left-over mini batches instead of a fresh batch.

* Ranges over: every number of epochs, period, log values.
* Code: `callbacks/monte_carlo/generator_iterator.py` (GeneratorIterator); `callbacks/monte_carlo/__init__.py` (default_wave_function_stats_callbacks_factory); `callbacks/monte_carlo/bad_eigen_state_stopping.py` (BadEigenStateStopping).
* Files: `CallbackProps.v`; model: `CallbackModel.v`, `CheckpointModel.v`, `IsingModel.v`, `TrainingModel.v`.
* Modelled and proved: The default callback list over whole training runs; generator attributes are functions of the number of fetched batches. Invariants over epochs.
* Status: proved. Theorems: `C54_validation_schedule`, `C54_fresh_batches`, `C54_mini_batches_refuted`, `C54_order`, `C54_period_zero`, `C54_early_stopping`, `C54_early_stopping_keys`, `C54_stop_ends_training`, `C54_relative_error_sign`.
* Scope: Whole training runs with the default callback list. One fresh batch per validation epoch holds for validation generators with full batches; with mini batches it is refuted. Early stopping characterised for a non zero bound.

### C55 Layer topology dispatch

The topology used for a layer is the last one registered for its exact class, looked up through wrappers; hence importing the +-1 samplers changes what sampling means for every other model in the process.

* Ranges over: every registration history.
* Code: `deepar/graph_analysis/topology_manager.py` (TopologyManager); `samplers/fast_autoregressive/__init__.py` (PlusMinusOneSamplingTopology).
* Files: `TopologyProps.v`; model: `OrderingModel.v`, `TensorModel.v`, `TopologyModel.v`.
* Modelled and proved: The registry as an association list with the class hierarchy. Case analysis.
* Status: proved. Theorems: `C55_dispatch`, `C55_import_changes_sampling`.
* Scope: Every registration history and wrapper depth.

### C56 Turning a conditional Keras model into a wave function

Claimed to succeed for every valid conditional model; false: the constructor reads attributes before they are set and always raises AttributeError.

* Ranges over: every model.
* Code: `machines/abstract_machine.py` (AutoregressiveWrapper); `machines/abstract_machine.py` (keras_conditional_wave_functions_to_wave_function).
* Files: `WrapperProps.v`; model: `AutoregressiveModel.v`, `EqualSpinsModel.v`, `GraphModel.v`, `WrapperModel.v`.
* Modelled and proved: Constructors with attribute tables and keyword dictionaries. Symbolic execution for every argument.
* Status: proved. Theorems: `C56_wrapper_refuted`, `C56_wrapper_attribute`, `C56_conversion_refuted`, `C56_no_conversion`, `C56_network_machine`, `C56_unknown_argument`, `C56_custom_ordering`, `C56_custom_ordering_refuted`.
* Scope: Refuted: the wrapper raises for every model and all keyword arguments. Proved for the machines that build their own network; the machine with a custom ordering forgets equal_up_down_spins and use_pfor.

### C57 Multi stage training resumes where it stopped

With one value per stage, a run that is interrupted in any epoch and restarted executes every remaining epoch with the settings of the stage it belongs to and ends after the total number of epochs; a single value given for several stages yields a malformed configuration.

* Ranges over: every stage list, every interruption epoch.
* Code: `experiments/train.py` (to_valid_stages_config, train, load_weights_if_exist).
* Files: `StagesProps.v`; model: `CheckpointModel.v`, `StagesModel.v`, `TrainingModel.v`.
* Modelled and proved: The loop over stages with restarts after any epoch. Induction over stages: executed epochs carry the settings of their stage.
* Status: proved. Theorems: `C57_resume`, `C57_interrupted`, `C57_checkpoints`, `C57_assertion`, `C57_lengths`, `C57_single_value_refuted`, `C57_workers`, `C57_evaluation_steps`.
* Scope: Every stage list and every starting epoch, composed with the epochs stored by the checkpoints; a single value for the stages is refuted (TypeError before the first epoch).

### C58 Reading a real network output as log amplitudes

VectorToComplexNumber on axis -1 or a positive axis pairs component k with component k + n/2 as real and imaginary part (other negative axes fail or pair wrongly), one-hot encoding maps +1 to category 0 and -1 to category 1, and combining conditionals sums exactly the selected entries.

* Ranges over: every vector length, every configuration.
* Code: `layers/complex/casting.py` (VectorToComplexNumber); `deepar/layers/one_hot.py` (PlusMinusOneToOneHot); `deepar/layers/autoregressive.py` (combine_autoregressive_conditionals).
* Files: `EncodingProps.v`; model: `AutoregressiveModel.v`, `EncodingModel.v`, `OrderingModel.v`, `TensorModel.v`.
* Modelled and proved: Whole tensors with a batch axis; unstack, split and stack as index maps. Index arithmetic for every axis.
* Status: proved. Theorems: `C58_vector_to_complex`, `C58_odd`, `C58_batch_axis`, `C58_no_axis`, `C58_unknown_size`, `C58_empty`, `C58_negative_axis`, `C58_negative_axis_refuted`, `C58_one_hot`, `C58_categories`, `C58_combine`, `C58_combine_categories`, `C58_amplitude`.
* Scope: Whole tensors with a batch axis, every axis and every size; negative axes other than -1 are refuted (error, or wrong pairs for size four).

### C59 Weight normalisation starts as the identity and fixes column norms

After construction the normalised kernel equals the raw kernel (no exponential parametrisation), and at any time each output column has norm |g|, for columns of length at least 1e-6; shorter ones come out too short.

* Ranges over: every kernel with non zero columns, every g.
* Code: `deepar/layers/wrappers.py` (WeightNormalization).
* Files: `WeightNormProps.v`; model: `OrderingModel.v`, `TensorModel.v`, `WeightNormModel.v`.
* Modelled and proved: Direction and length variables, l2_normalize with its epsilon. Algebra of norms.
* Status: proved. Theorems: `C59_identity`, `C59_identity_whole`, `C59_exponential`, `C59_column_norm`, `C59_whole_norm`, `C59_short_columns`, `C59_tiny_refuted`, `C59_unusable`.
* Scope: Exact real arithmetic. Columns of length at least 10^-6 (the epsilon of l2_normalize); shorter non zero columns are refuted. The exponential parametrisation starts 10^-10 too long.

### C60 Normalising in log space

normalize_in_log_space returns logits whose exponentials, raised to norm_type, sum to one over the last axis, and changes all entries of a site by the same amount.

* Ranges over: every vector of real log amplitudes, every positive norm type.
* Code: `deepar/layers/autoregressive.py` (normalize_in_log_space).
* Files: `AutoregressiveProps.v`; model: `AutoregressiveModel.v`, `OrderingModel.v`.
* Modelled and proved: `normalize_in_log_space` over R and C. Algebra of exponentials.
* Status: proved. Theorems: `C60_real_sums_to_one`, `C60_complex_sums_to_one`, `C60_amplitudes_normalised`, `C60_real_shift`, `C60_complex_shift`.
* Scope: Real and complex branch, every non zero norm type.

### C61 Exact training and evaluation report the exact expectation values

The exact callbacks log, per batch or per epoch, the energy, its variance, the relative error and the (absolute) magnetisation of the machine that was current when the last exact cycle began; exact_evaluate reports those of the machine it is given whatever was evaluated before; registering the machine-updated callback makes every batch use the current machine. The observable callback with its default arguments raises an AttributeError instead.

* Ranges over: every chain length up to 31, Hamiltonian, batch size dividing 2^n, history of earlier evaluations, sequence of machines during training, number of steps and epochs.
* Code: `callbacks/exact/local_energy.py` (ExactLocalEnergy); `callbacks/exact/sigma_z.py` (ExactSigmaZ); `callbacks/exact/observable.py` (ExactObservableCallback); `callbacks/exact/runtime_stats.py` (RuntimeStats); `callbacks/exact/machine_updated.py` (MachineUpdated); `callbacks/exact/__init__.py` (default_wave_function_callbacks_factory); `evaluation/evaluate.py` (exact_evaluate).
* Files: `ExactCallbackProps.v`; model: `CallbackModel.v`, `ExactCallbackModel.v`, `ExactModel.v`, `IsingModel.v`, `ObservableModel.v`.
* Modelled and proved: The exact callbacks, their caches, the training loop and `exact_evaluate`, with an arbitrary clock. Invariant: the cached arrays belong to the machine of the last cycle start.
* Status: proved. Theorems: `C61_evaluate`, `C61_logged_per_batch`, `C61_whole_cycles`, `C61_logged_per_epoch`, `C61_machine_updated`, `C61_observable`, `C61_observable_per_batch_refuted`, `C61_magnetisation_bounds`, `C61_before_evaluation`.
* Scope: Evaluation, training per batch and per epoch, the machine-updated callback and observables of exact variational training, for every batch size, history and machine sequence. The clock is an arbitrary (for the order statements monotone) function. Refuted: ExactObservableCallback with its default log_in_batch_or_epoch=True raises AttributeError.

### C62 Convergence statistics of Markov chain samples

For at least two chains of at least two samples the reported scale reduction and variance are those of Bayesian Data Analysis, do not depend on shifting the energies and scale with them; the reported autocorrelation sum stops one lag after the book's, so the reported effective sample size is not the book's and can be negative. With a single chain, the default, the statistics raise ZeroDivisionError.

* Ranges over: every number of chains and samples per chain, every list of local energies.
* Code: `samplers/metropolis_hastings.py` (sum_correlations, MetropolisHastingsSampler.calc_r_hat_value); `callbacks/monte_carlo/mcmc_stats.py` (MCMCStats).
* Files: `McmcStatsProps.v`; model: `IsingModel.v`, `McmcStatsModel.v`, `TrainingModel.v`.
* Modelled and proved: The statistics with numpy's infinities and nan. Reindexing of arrays to the formulas of the book; loop invariant for the truncated sum; total variance identity.
* Status: proved. Theorems: `C62_values`, `C62_one_lag_more`, `C62_effective_sample_size_refuted`, `C62_single_chain_refuted`, `C62_one_sample`, `C62_all_equal`, `C62_affine`, `C62_bounds`, `C62_logged`, `C62_errors`.
* Scope: Real arithmetic, with the infinities and nan of numpy for divisions by zero. Scale reduction, variance and their split, affine invariance, degenerate cases and the exact set of lags summed. Refuted: a single chain (the default) raises ZeroDivisionError; the effective sample size sums one lag more than the book and can be negative; for an odd number of lags the last pair is not looked at.

### C63 Monte Carlo estimates of energy, variance and gradient on average

Whatever sampler gives every row of a batch the distribution |psi|^2, the energy a step reports averages to <psi|H|psi>/<psi|psi>. For independent rows, which the autoregressive and the exact sampler produce, the mean square error of the energy is (<H^2>-<H>^2)/B for a Hermitian H, the reported variance averages to (B-1)/B times the fluctuation of the real part of the local energy, and the derivative of the batch loss averages to (B-1)/B^2 times the derivative of the energy, or (WB-1)/(WB)/B with W Horovod workers; with a single row the targets vanish and nothing is learned.

* Ranges over: every number of spins, batch size and number of workers, every represented operator and wave function.
* Code: `optimization/variational_monte_carlo.py` (VariationalMonteCarlo); `optimization/horovod_variational_monte_carlo.py` (HorovodVariationalMonteCarlo); `deepar/samplers/autoregressive.py` (AutoregressiveSampler); `samplers/exact_sampler.py` (ExactSampler).
* Files: `MonteCarloProps.v`; model: `AutoregressiveModel.v`, `ExactModel.v`, `MonteCarloModel.v`, `ObservableModel.v`, `OrderingModel.v`.
* Modelled and proved: One step after the sampler returned a batch, and Horovod's workers. Induction on the batch size gives the averages of sums and of products of sums; the rest is algebra and the derivative of the energy of C34.
* Status: proved. Theorems: `C63_independent_rows`, `C63_autoregressive_batches`, `C63_exact_batches`, `C63_step`, `C63_energy_unbiased`, `C63_energy_error`, `C63_fluctuation`, `C63_variance`, `C63_gradient`, `C63_horovod_gradient`, `C63_single_row_refuted`.
* Scope: Averages are finite sums over all batches with their probabilities; that the samplers' uniform random numbers give these probabilities is stated as boxes of random numbers with that volume.

### C64 Convergence of the Metropolis samplers

Driven sweep by sweep, a Metropolis chain follows a path of configurations with probability equal to the product of the one-sweep transition probabilities. With uniform proposals its distribution approaches |psi|^2/<psi|psi> at least by the factor 1 - 1/(2^n max p) per sweep; with local flips it converges geometrically from every start exactly unless all amplitudes have equal modulus (then it alternates between two halves for ever); with exchange moves it converges within the configurations of equal total spin and never leaves them; the Hamiltonian sampler converges on all configurations for the Ising operator and within equal total spin for the Heisenberg operator. The distance to the stationary distribution never grows and bounds the error of every mean.

* Ranges over: all lattice shapes, all wave functions with nonzero amplitudes, all starting distributions, all numbers of sweeps.
* Code: `samplers/metropolis_hastings.py` (MetropolisHastingsSampler, MetropolisHastingsSymmetricProposal, MetropolisHastingsLocal, MetropolisHastingsExchange, MetropolisHastingsUniform, MetropolisHastingsHamiltonian).
* Files: `MixingProps.v`; model: `ExactModel.v`, `HeisenbergModel.v`, `IsingModel.v`, `MetropolisModel.v`, `ObservableModel.v`.
* Modelled and proved: The transition matrices are those of C37/C38 (interval lengths of acceptance numbers averaged over the proposals). `after` iterates the matrix; C64_trajectory ties it to `run_sweeps`. A generic lemma: reversible, irreducible on a closed set and one configuration that can be kept imply that some power of the matrix dominates a multiple of the target, which contracts differences. Irreducibility of exchange moves: exchanges of neighbours generate exchanges of any two sites (conjugation along a path), and those connect configurations of equal sum.
* Status: proved. Theorems: `C64_trajectory`, `C64_sum_over_paths`, `C64_never_farther`, `C64_observables`, `C64_uniform_converges`, `C64_local_converges`, `C64_local_periodic_refuted`, `C64_exchange_converges`, `C64_exchange_refuted`, `C64_hamiltonian_converges`, `C64_ising_converges`, `C64_heisenberg_converges`.
* Scope: Paths and their probabilities from run_sweeps, Doeblin bound for uniform proposals, geometric convergence for local, exchange and Hamiltonian proposals (rate exists, not explicit), refutations for constant modulus (local) and for exchange moves on all configurations.

### C65 Evaluating the symmetrised wave function with samples of the unsymmetrised one

The evaluation scripts draw configurations from the trained machine but compute local energies of its symmetrised version. Because the modulus squared of the probabilistic ensemble is the mean of those of the images, and the Hamiltonian commutes with the images, every batch statistic that ignores the symmetry has the same average as if the batch were drawn from the symmetrised wave function: the energy is unbiased, with the same mean square error and the same average reported variance, and so is the absolute magnetisation. This holds for the eight images of square grids with either boundary, for the global flip, for both combined (run_evaluation.py), and for translations with periodic boundary. It fails for the plain average of amplitudes, for translations of open lattices, for images of rectangular grids and for the magnetisation.

* Ranges over: all machines (arbitrary complex log amplitudes per shape), all square grids or chains and grids, both boundary conditions, all couplings, all batch sizes and batch laws with the right one-row marginals.
* Code: `machines/ensemble.py` (make_2d_obc_invariants, make_pbc_invariants, make_up_down_invariant, probabilistic_ensemble_op, average_ensemble_op); `optimization/variational_monte_carlo.py` (VariationalMonteCarlo, next_batch); `experiments/run_evaluation.py` (run).
* Files: `SymmetricEvaluationProps.v`; model: `ExactModel.v`, `MonteCarloModel.v`, `ObservableModel.v`, `OrderingModel.v`, `SymmetricEvaluationModel.v`, `SymmetryModel.v`.
* Modelled and proved: `symmetrised` states what the ensembles provide (C30, C31 give it for each constructor; composition of lists of images for the combined ones). Means over configurations are exchanged with the mean over images, which only permutes configurations; local energies of an invariant wave function are invariant when the matrix is (C65_hamiltonian_symmetries: images of sites permute the bond list). Refutations use matrices without field, whose energy is the mean bond energy, on two or three sites.
* Status: proved. Theorems: `C65_hamiltonian_symmetries`, `C65_statistics`, `C65_energy_unbiased`, `C65_run_evaluation`, `C65_square_images`, `C65_translations`, `C65_global_flip`, `C65_average_refuted`, `C65_open_translations_refuted`, `C65_rectangle_refuted`, `C65_sigma_z_refuted`, `C65_magnetisation`.
* Scope: Proved for the model of SymmetryModel.v and MonteCarloModel.v put together as in experiments/run_evaluation.py; four _refuted theorems delimit the claim.

### C66 The fast graph sampler on the built-in machines

For every real or complex 1D machine and every 2D machine with an odd kernel, the layers recorded while the machine is built form a model that FastAutoregressiveSampler accepts: each layer's topology agrees with the layer, the dependency graph with the sampling edges has no cycle, and the model's output at each site is the conditional log probability of the machine. So the fast sampler returns the same configuration as the site by site sampler for the same random numbers, and draws every configuration s with probability |psi(s)|^2. A machine that rejects its parameters raises the same exception in both descriptions. With equal_up_down_spins=True the sampler raises because EqualUpDownSpins has no registered topology, and on the custom ordering machine it raises TypeError in the Reshape topology.

* Ranges over: all depths, channel numbers, kernel sizes, dilations, skip connections, weights and length-preserving activations; all chain lengths and grid sizes; all random numbers.
* Code: `deepar/samplers/fast_autoregressive.py` (FastAutoregressiveSampler); `deepar/graph_analysis/dependency_graph.py` (DependencyGraph); `machines/simple_conv_net_autoregressive_1D.py` (SimpleConvNetAutoregressive1D); `machines/complex_values_simple_conv_net_autoregressive_1D.py` (ComplexValuesSimpleConvNetAutoregressive1D); `machines/conv_net_autoregressive_2D.py` (ConvNetAutoregressive2D); `machines/abstract_machine.py` (AutoNormalizedAutoregressiveMachine).
* Files: `FastMachineProps.v`; model: `AutoregressiveModel.v`, `FastMachineModel.v`, `GraphModel.v`, `MachinesModel.v`, `OrderingModel.v`, `TensorModel.v`, `TopologyModel.v`.
* Modelled and proved: Layer lists are built by the same sequence of calls as the constructors. An invariant (`good`) is kept by each call: the new layer reads earlier layers, its topology agrees with it (C08-C10), and a time assigned to each of its locations is not earlier than the times of its dependencies. Times are bounded by a linear function of the location (n in 1D; i*w+j for the horizontal and i*w+w-1 for the vertical stack), padding lowers and convolution raises the bound, and the final shift makes it strict, so the time is a rank that excludes cycles. At the same time each layer computes the tensor of MachinesModel.v. C12, C13, C15 and C16 then give sampling.
* Status: proved. Theorems: `C66_real_1d`, `C66_complex_1d`, `C66_conv_2d`, `C66_same_as_site_by_site`, `C66_same_exception`, `C66_equal_spins_unsupported`, `C66_custom_ordering_graph`, `C66_custom_ordering_raises`.
* Scope: Proved for the layer lists of FastMachineModel.v, which follow the constructors call by call; values are vectors of exact integers, reals or complex numbers.

### C67 The J1-J2 operator is the J1-J2 Hamiltonian

On every two-dimensional grid with at least two sites (periodic: sides of at least 3) J1J2(shape, j2, pbc) is constructed, keeps its declared number of connections over every history of calls, and the connections it reports for a configuration s with their matrix elements sum to <s|H|t> for every t, where H is the sum over neighbouring sites of XX+YY+ZZ plus j2 times the same sum over diagonal neighbours. The matrix is Hermitian, conserves the magnetisation, equals the Heisenberg Hamiltonian for j2 = 0, and does not change under the rotations and mirror images of a square, the global flip, and, on periodic grids, translations; so the energy of a symmetrised wave function is estimated without bias with samples of the unsymmetrised one. For j2 <> 0 every configuration has one connection for itself and one per bond with opposite spins. Shapes that are not two-dimensional and the open 1 x 1 grid raise AssertionError.

* Ranges over: all grids with at least two sites (periodic sides >= 3), all real j2, all non-empty batches of spin configurations, all histories of calls.
* Code: `operators/j1j2.py` (j1j2_two_dim_netket_operator, j1j2_two_dim_operator, J1J2); `operators/netket_operator.py` (NetketOperatorWrapper); `examples/j1j2_2d_monte_carlo_4.py` (operator).
* Files: `J1J2OperatorProps.v`; model: `ExactModel.v`, `J1J2Model.v`, `J1J2OperatorModel.v`, `MonteCarloModel.v`, `NetketModel.v`, `ObservableModel.v`, `OrderingModel.v`, `SymmetricEvaluationModel.v`, `SymmetryModel.v`.
* Modelled and proved: The bond matrix is computed entry by entry; one bond contributes one swapped configuration. Sums over the edge list are rewritten as sums over products of chains, so that chain symmetries (reflection, shift) and the exchange of rows and columns give the symmetries of the grid. The wrapper lemma is general: any get_conn that reports the sample first and stays within the declared number represents its matrix.
* Status: proved. Theorems: `C67_operator`, `C67_rejected`, `C67_connections`, `C67_hermitian_conserves`, `C67_heisenberg`, `C67_symmetries`, `C67_evaluation`.
* Scope: NetKet itself is not part of the repository: GraphOperator.get_conn and CustomGraph are modelled from their documented meaning (J1J2OperatorModel.v); the cut-off of 1e-6 is replaced by exact zero. Periodic grids with a side of 1 or 2, on which bonds coincide, are excluded (C24 shows the duplicates).

### C68 A training run follows the energy gradient, end to end

For the built-in autoregressive machines with any weights, the batches that the fast graph sampler (with its mini batches) hands to the Monte Carlo generator consist of independent rows with Born probabilities; the generator never fails on them and attaches the right targets; under the size condition that train.py asserts, training with mini batches and the gradient accumulating optimizer makes exactly the same updates as training on whole batches (times the number of mini batches in sum mode); and the gradient of an update is on average (B - 1) / B^2 times the derivative of the energy with respect to every weight.

* Ranges over: all weights, all 1D chains and 2D grids (odd kernels in 2D), all operators that represent a Hermitian matrix, all batch sizes and mini batch sizes with B < mini or mini | B, all optimizers, any number of updates, all random numbers.
* Code: `experiments/train.py` (build_model, compile_model, train); `deepar/samplers/fast_autoregressive.py` (FastAutoregressiveSampler.__next__, FastAutoregressiveSampler._extract_the_sample); `optimization/variational_monte_carlo.py` (VariationalMonteCarlo.next_batch); `optimization/mini_batch_generator.py` (MiniBatchGenerator); `optimizers/accumulate_gradient_optimizer.py` (convert_to_accumulate_gradient_optimizer); `optimization/loss.py` (loss_for_energy_minimization).
* Files: `PipelineProps.v`; model: `AutoregressiveModel.v`, `ExactModel.v`, `FastMachineModel.v`, `GraphModel.v`, `MachinesModel.v`, `MonteCarloModel.v`, `ObservableModel.v`, `OrderingModel.v`, `PipelineModel.v`, `TensorModel.v`, `TrainingModel.v`.
* Modelled and proved: A row of the fast sampler equals the site by site sampler on the same random numbers (C66), so the boxes of C63 apply to the concatenated runs. The loss is linear in the target, so its gradient for targets 1 and -i gives the derivative of log psi, and the covariance computation of C63 gives the average. C31 reduces mini batch training to whole batches.
* Status: proved. Theorems: `C68_machines`, `C68_sampler`, `C68_generator`, `C68_training`, `C68_update`.
* Scope: Back propagation is trusted: the per sample gradients are assumed to be the derivatives of the loss. One training stage; changes of stage are C69.

### C69 Updates across the stages of a training run

Whatever the accumulating optimizer counted before, a stage with f mini batches per batch that starts after s mini batches makes updates whose window of f mini batches is shifted by s mod f against the batches; the remaining gradients wait across updates and stages. If every stage starts at a multiple of its f, the run makes exactly the updates of whole batch training in every stage and nothing waits at the end. The default configurations of the two runners have this property; the Ising configuration with --mini_batch_size 256 passes the assertion of train.py and does not. A restart resets counter and accumulators, so the continued stage is whole batch training again.

* Ranges over: all stage lists that pass the assertion of train.py, all mini batch sizes, all optimizers and learning rates per stage, all gradients, any number of updates, any state of the optimizer at the start.
* Code: `experiments/train.py` (train, load_weights_if_exist); `optimizers/accumulate_gradient_optimizer.py` (convert_to_accumulate_gradient_optimizer); `optimization/mini_batch_generator.py` (MiniBatchGenerator); `callbacks/checkpoint.py` (save_optimizer_weights, load_optimizer_weights); `experiments/ising_runner.py` (main); `experiments/heisenberg_runner.py` (main).
* Files: `StageTrainingProps.v`; model: `StageTrainingModel.v`, `StagesModel.v`, `TrainingModel.v`.
* Modelled and proved: One step of the run is split by its position in the window. An invariant over the mini batches of a batch (first f - r complete the window, the other r wait) gives one update of the shifted description; induction on updates and then on stages. With r = 0 the description is whole batch training.
* Status: proved. Theorems: `C69_stage`, `C69_run`, `C69_aligned`, `C69_small_batches`, `C69_defaults`, `C69_ising_256_refuted`, `C69_out_of_step_refuted`, `C69_restart`.
* Scope: C69_stage, C69_run, C69_aligned, C69_small_batches, C69_defaults and C69_restart are positive; C69_ising_256_refuted and C69_out_of_step_refuted show that the claim without the alignment condition is false of the code. The optimizer of every stage is the same state with another step function (learning rate). That optimizer.weights does not contain the accumulators is read from Keras and trusted.

### C70 Layers that normalise along an axis

LayerNormalization maps the features of every location to (x - mean) / sqrt(variance + epsilon) * gamma + beta; with the initial weights they have mean zero and mean square v / (v + epsilon), numbers added to all features of a location do not matter, and the result is bounded by gamma sqrt(n) + beta. LayerNormalization, NormalizeInLogSpace, Softmax along the features and elementwise layers give the same entries when the fast sampler calls them on one location. Softmax along a spatial axis does not: the fast sampler silently normalises over features instead, and the topology hides the dependencies on the other locations.

* Ranges over: all batch sizes, all spatial shapes and numbers of features, all inputs, all epsilon > 0, all gamma and beta; the failure for every shape with at least two locations along the axis.
* Code: `deepar/layers/layer_normalization.py` (LayerNormalization); `deepar/layers/autoregressive.py` (normalize_in_log_space); `deepar/graph_analysis/one_to_one_topology.py` (OneToOneTopology).
* Files: `AxisProps.v`; model: `AutoregressiveModel.v`, `AxisModel.v`, `OrderingModel.v`, `TensorModel.v`, `TopologyModel.v`.
* Modelled and proved: A reduction with keepdims, broadcast back, is a function of the fiber through the entry; for the last axis the fiber is the list of features of the location, which is the same in the tensor restricted to that location. The counterexample is a tensor that is zero on one slice and ln n elsewhere.
* Status: proved. Theorems: `C70_layer_normalization`, `C70_standardised`, `C70_shift`, `C70_bounded`, `C70_layer_normalization_location`, `C70_log_space_location`, `C70_softmax_location`, `C70_softmax_rank`, `C70_elementwise_location`, `C70_softmax_spatial_refuted`.
* Scope: C70_softmax_spatial_refuted: one_to_one_topology.py registers Softmax whatever its axis is. The Softmax layer is Keras code, modelled from its source: a tensor with two axes is normalised along the last one.

### C71 Gradients through every layer of the machines

For the convolutional autoregressive machines (real and complex in one dimension, real in two), back propagation through paddings, shifts, convolutions, activations (none, relu, lncosh, crelu), residual and skip connections, the cast to complex numbers, the normalisation of the conditionals and their product yields the derivative of log psi along any curve of weights, and so the gradient of the loss of a sample, as long as no rectifier sits at zero with a moving input and no logarithm of lncosh is on its cut. With this, one update of the one dimensional machine is (B-1)/B^2 times the derivative of the energy on average, from random numbers to parameter update. The condition cannot be dropped: in row zero the two dimensional machine applies its activation to a bias alone, and with the initial bias zero log psi has no derivative there while back propagation reports zero. The gradient through weight normalisation is also correct unless the sum of squares is exactly 1e-12.

* Ranges over: all depths, channels, kernel sizes, dilations, grid sizes, weights and their places in the parameter vector, all configurations, all curves of weights; for the update all operators with a Hermitian matrix, batch and mini batch sizes.
* Code: `machines/simple_conv_net_autoregressive_1D.py` (SimpleConvNetAutoregressive1D); `machines/complex_values_simple_conv_net_autoregressive_1D.py` (ComplexValuesSimpleConvNetAutoregressive1D); `machines/conv_net_autoregressive_2D.py` (ConvNetAutoregressive2D); `optimization/loss.py` (loss_for_energy_minimization); `layers/complex/tensorflow_ops.py` (lncosh, crelu); `deepar/layers/wrappers.py` (_compute_weights).
* Files: `GradientProps.v`; model: `AutoregressiveModel.v`, `ComplexModel.v`, `ExactModel.v`, `FastMachineModel.v`, `GradientModel.v`, `GraphModel.v`, `IsingModel.v`, `MachinesModel.v`, `MonteCarloModel.v`, `ObservableModel.v`, `OrderingModel.v`, `PipelineModel.v`, `TensorModel.v`, `TrainingModel.v`, `WeightNormModel.v`.
* Modelled and proved: A tangent relation between a curve of values and a dual number is preserved by every layer, because the layers only use zero, plus, times and the activation of the number type. log psi follows with the chain rule for exp, log and sums. The log of lncosh needs the argument function away from its cut, which holds locally. The counterexample is a machine of one site evaluated with generic rules for its numbers.
* Status: proved. Theorems: `C71_real_machine`, `C71_complex_machine`, `C71_machine_2d`, `C71_lncosh`, `C71_normalized_kernel`, `C71_loss_gradient`, `C71_first_row`, `C71_initial_bias_refuted`, `C71_update`.
* Scope: Derivatives are computed in forward mode with dual numbers through the same layer functions as the machines of the machine properties; that reverse mode gives the same numbers, and that TensorFlow registers these rules for relu, tanh, log and maximum, is trusted. C71_initial_bias_refuted shows that the claim without the smoothness condition is false of the code; C71_first_row is the reason. all_smooth is computed by the model, so the condition can be checked for concrete weights.

### C72 What the commands of the experiment scripts do and print

For square grids whose ground state energy is in the tables, the eval and train commands of the Ising and the Heisenberg script use an operator that represents the right Hamiltonian, run the planned stages, and print the means over all samples drawn by the sampler: the real part of the local energy of the symmetrised wave function, its error relative to the known energy, the variance within batches and the magnetisations; over all samples drawn independently, the printed energy is on average the energy of the symmetrised wave function, with mean square error equal to its fluctuation divided by the number of samples. The final evaluation of the documented trainings uses 2^19 samples, not the 2^15 the number of steps is computed from. Failures: no subcommand gives AttributeError; an Ising field outside the table on the open 12x12 grid gives KeyError before anything starts; without a known energy, or with a mini batch below 16 or above 2^19 + 15, the whole training runs and its final evaluation then raises, so nothing is printed; with horovod the variance and the magnetisations are those of rank 0 only, because callbacks[:4] removes the callback that averages.

* Ranges over: all configurations of the two scripts on square grids, all machines, all batches of the sampler, all numbers of workers and all checkpoints to resume from.
* Code: `experiments/ising_runner.py` (main); `experiments/heisenberg_runner.py` (main); `experiments/run_evaluation.py` (run); `experiments/train.py` (train); `evaluation/evaluate.py` (evaluate).
* Files: `RunnerProps.v`; model: `CallbackModel.v`, `CheckpointModel.v`, `ExactModel.v`, `HeisenbergModel.v`, `IsingModel.v`, `MonteCarloModel.v`, `ObservableModel.v`, `OrderingModel.v`, `RunnerModel.v`, `StagesModel.v`, `SymmetricEvaluationModel.v`, `SymmetryModel.v`, `TrainingModel.v`.
* Modelled and proved: The scripts are reduced to C57 (stages), C53 (callbacks and evaluate), C63 (batches, with and without horovod) and C65 (the symmetrised energy is unbiased); the mean of the means of batches of equal size is the mean over all samples, and the relative error is affine in the energy.
* Status: proved. Theorems: `C72_no_command`, `C72_field_refuted`, `C72_evaluation`, `C72_evaluation_refuted`, `C72_training`, `C72_documented`, `C72_documented_heisenberg`, `C72_documented_evaluation`, `C72_results_lost_refuted`, `C72_accuracy`, `C72_horovod`, `C72_metric_average_refuted`.
* Scope: The model starts with the parsed configuration; the batches of the sampler are arbitrary (C72_accuracy: independent draws from the machine). C72_field_refuted, C72_evaluation_refuted, C72_results_lost_refuted and C72_metric_average_refuted are the failures.

### C73 Receptive fields of the convolutional machines

The conditional distribution at site i of the 1D machines depends on the R sites before i only, and for every one of these sites there are weights for which it depends on it, where R = 1 + (kernel_size - 1) times the sum of the dilation rates of the layers (depth - 2 layers in the real, depth - 1 in the complex machine), and the rate starts at 1 and doubles while it is below max_dilation_rate. The 2D machine with D = 2 (depth - 2) + 2 causal convolutions and kernel size 2q + 1 sees exactly: in its own row the sites up to 4Dq + 1 to the left; in earlier rows (up to 2Dq + 2q + 1 of them) the sites from 4Dq + 1 (4Dq + 1 - q in the farthest rows) to the left to Dq to the right. Hence the 1D machine can represent all conditionals of n sites only if n - 1 <= R, the 2D machine only if w - 1 <= Dq and h - 1 <= 2Dq + 2q + 1. With the default arguments (use_dilation=True, max_dilation_rate=None) there is no dilation at all: the basic examples (16 sites, depth 7) see 11 sites, and the 10 x 10 examples with depth 5 cannot see the last column from the first site of a row.

* Ranges over: all depths, kernel sizes, channels, dilation arguments, lattice sizes and sites; blindness for all weights and activations, influence for every activation that preserves the order of non negative numbers (relu, lncosh).
* Code: `machines/simple_conv_net_autoregressive_1D.py` (causal_conv_1d, SimpleConvNetAutoregressive1D._build_unnormalized_conditional_log_wave_function); `machines/complex_values_simple_conv_net_autoregressive_1D.py` (ComplexValuesSimpleConvNetAutoregressive1D._build_unnormalized_conditional_log_wave_function); `machines/conv_net_autoregressive_2D.py` (ConvNetAutoregressive2D._causal_conv_2d, ConvNetAutoregressive2D._resiual_block); `examples/basic_autoregressive_exact_gradient.py` (convnet).
* Files: `ReceptiveProps.v`; model: `AutoregressiveModel.v`, `ComplexModel.v`, `MachinesModel.v`, `OrderingModel.v`, `TensorModel.v`.
* Modelled and proved: Blindness: the agreement relations of C15 and C16 with a region instead of a prefix, transported through every layer. Influence: an order relation between the runs on two configurations (real numbers, never smaller, strictly larger in total on the region) is preserved by convolutions with kernels of ones, shifts, skips, concatenations and order preserving activations; the last layer feeds only the first filter, so the probability strictly grows. The dilated layers cover the window without gaps because each rate is at most one more than the sum of the earlier ones.
* Status: proved. Theorems: `C73_real_machine_window`, `C73_real_receptive_field`, `C73_complex_machine_window`, `C73_complex_receptive_field`, `C73_grid_machine_window`, `C73_grid_receptive_field`, `C73_real_machine_sees_all_iff`, `C73_grid_machine_sees_all_iff`, `C73_default_dilation_refuted`, `C73_dilation_doubles`, `C73_basic_examples_blind_refuted`, `C73_grid_examples_blind_refuted`.
* Scope: Influence is shown for kernels of ones with a bias that keeps all numbers non negative; weight normalisation can represent these kernels (C59), so it does not change the result. C73_default_dilation_refuted: the default use_dilation=True has no effect. C73_basic_examples_blind_refuted and C73_grid_examples_blind_refuted are the blind spots of examples.

### C74 What the TensorBoard callback adds, feeds, writes and raises

In the epochs that are multiples of histogram_freq every validation sample is fed to the summaries exactly once, in order, in consecutive batches of at most batch_size (all arrays cut at the same places, the learning phase handed over whole) and every batch gives one event numbered with the epoch; other epochs feed nothing. Missing validation or embeddings data raise ValueError; the generator variant feeds the current batch with zeros and weights 1/n, raises AssertionError for a model with a learning phase and AttributeError before the first batch. The embedding variable ends with the output for sample i in row i. set_model adds one histogram per weight, one per real output, one image per weight with one to three axes longer than one in which every entry has its own pixel (the assertion on the shape never fails), and nothing on a second call; with the gradient accumulating optimizer and write_grads it raises ValueError. _write_logs writes every log entry but 'batch' and 'size' once and in order, or, at the first value that is not one real number, raises after having written the entries before it; after such an exception in on_batch_end the samples are counted and the write is not. With an update_freq other than 'epoch' the logs of the epoch get the same number as those of its last batch.

* Ranges over: all models (lists of layers, weights, shapes, outputs), options, validation data, batch sizes, epochs and dictionaries of logs.
* Code: `callbacks/tensorboard.py` (TensorBoard.set_model, TensorBoard.on_epoch_end, TensorBoard._write_logs, TensorBoard.on_batch_end); `callbacks/monte_carlo/tensorboard_with_generator_validation_data.py` (TensorBoardWithGeneratorValidationData.on_epoch_end).
* Files: `TensorboardProps.v`; model: `CheckpointModel.v`, `OrderingModel.v`, `TensorModel.v`, `TensorboardModel.v`.
* Modelled and proved: The while loops are unrolled by induction on the fuel to an explicit list of batches; concatenating firstn b (skipn (k b)) over the needed k gives the list back. The image goes through squeeze, transpose and reshape, whose row-major positions are compared. set_model is split into the pieces of each weight and each layer.
* Status: proved. Theorems: `C74_validation_batches`, `C74_learning_phase`, `C74_zero_batch_size`, `C74_missing_data`, `C74_no_histograms`, `C74_generator`, `C74_embedding_rows`, `C74_weight_image`, `C74_summaries`, `C74_accumulated_gradients`, `C74_logs_written`, `C74_logs_exception`, `C74_batch_end`, `C74_same_step`, `C74_nothing_merged`, `C74_tags`, `C74_set_model_succeeds`, `C74_numbers`.
* Scope: The summaries are modelled as what is recorded (source, tag, image shape), not the protocol buffers; TensorFlow's renaming of equal tags and the flush are left out. C74_zero_batch_size: batch_size = 0 never ends. C74_accumulated_gradients: write_grads cannot be used with the accumulating optimizer.

### C75 What the example scripts do

examples/ising.py is meant to train with mini batches that fit into the memory and to print an evaluation. False for every depth: depth_to_max_mini_batch returns 1 always, so all three stages run with mini batches of one sample (one update per batch_size steps), the weights of the three stages are saved and then the evaluation raises ZeroDivisionError; without --gamma KeyError, with weights but no optimizer file TypeError; the run name states the opposite of the weight normalisation used. With the value of the table instead, the script would finish with statistics over exactly 2^15 samples. examples/j1j2_2d_monte_carlo_4.py exits after the first fit iff some epoch from the tenth on ends with a batch of small variance and energy 10% too high, otherwise evaluates; its evaluation is called with the symmetrised model but reports, for all 200 steps, the last training batch. examples/evaluate_with_2d_obc_invariant.py reports the means over the 200 batches of each model. The run index chooses from the parameter grid by its digits in mixed radix, negative indices included, and N consecutive indices choose all N combinations once.

* Ranges over: every depth, field, checkpoint, machine and sampler; every history of batch energies; every grid and every integer run index.
* Code: `examples/ising.py` (depth_to_max_mini_batch, run, restore_run_state); `examples/j1j2_2d_monte_carlo_4.py` (params_options, evaluate); `examples/evaluate_with_2d_obc_invariant.py` (evaluate); `evaluation/evaluate.py` (evaluate).
* Files: `ExamplesProps.v`; model: `CallbackModel.v`, `CheckpointModel.v`, `ExactModel.v`, `ExamplesModel.v`, `IsingModel.v`, `RunnerModel.v`, `StagesModel.v`, `SymmetricEvaluationModel.v`, `SymmetryModel.v`, `TrainingModel.v`.
* Modelled and proved: The stage loop is run symbolically for an arbitrary checkpoint epoch. Early stopping: induction over the epochs with the number of batches fetched. The evaluation with a foreign generator logs the same batch each step, so the means are constants. The grid: blocks of equal length in the product, quotient and remainder.
* Status: proved. Theorems: `C75_max_mini_batch_refuted`, `C75_ising_refuted`, `C75_ising_errors`, `C75_run_name_refuted`, `C75_ising_with_capacity`, `C75_grid`, `C75_grid_complete`, `C75_grid_empty`, `C75_j1j2`, `C75_j1j2_evaluation_refuted`, `C75_obc_evaluation`.
* Scope: C75_max_mini_batch_refuted, C75_ising_refuted, C75_run_name_refuted, C75_j1j2_evaluation_refuted: the claims are false. Modelled: the script bodies from the parsed options on, with fit_generator and the callbacks of CallbackModel.v and the evaluation of RunnerModel.v; TensorBoard and TerminateOnNaN are left out of the lists of callbacks, the names of files and runs are kept only as far as stated.

### C76 Random initial values of complex weights

A complex weight made with the names complex_glorot or complex_he has in every entry a modulus times a direction from one common draw; an initializer object cannot serve two weights; Keras initializers (one for both parts, a pair, a name) give first value + i * second value; everything else raises the stated exception (None an AttributeError, a zero fan a ZeroDivisionError). The names promise second moments E|w|^2 = 2/(fan_in+fan_out) and 2/fan_in: false, the code takes the standard deviation scale^2 instead of sqrt(scale), so that E|w|^2 = 2/n^4 (n = fan_in+fan_out or fan_in), too small by the factor n^3, right only for complex_he with fan_in 1; the outputs of a first ComplexDense layer on spins have mean square at most 2/(inputs+units)^3. The default initializer should work for both dtypes of a layer: false, with complex128 it always raises ValueError since the draws are float32. The RBM machines (one normal initializer) get E|w|^2 = 2 stddev^2.

* Ranges over: every shape, every identifier, every draw; for the moments every probability space with normal numbers of second moment 1 and, for the layer output, unrelated directions.
* Code: `layers/complex/initializers.py` (get, random_rayleigh, StandartComplexValueInitializer, FromRealValueInitializers, NegateDecorator, ConjugateDecorator); `layers/complex/base_layer.py` (ComplexLayer, add_complex_weight); `layers/complex/dense.py` (ComplexDense); `machines/rbm.py` (RBMBase).
* Files: `InitializersProps.v`; model: `ComplexModel.v`, `InitializersModel.v`.
* Modelled and proved: The weight is computed symbolically up to the draw. Moments by linearity: the squared modulus is sigma^2 (x^2+y^2). The output of a layer: expand the square of the sum into a double sum and drop the terms off the diagonal.
* Status: proved. Theorems: `C76_standard_weight`, `C76_shared_instance`, `C76_complex128_refuted`, `C76_keras_weight`, `C76_errors`, `C76_criterion_refuted`, `C76_output_power`, `C76_normal_weight`.
* Scope: C76_criterion_refuted and C76_complex128_refuted: the claims are false. The random numbers are arguments; probability is an abstract linear expectation with a class of integrable variables. That tensorflow does not convert a float32 initial value to a float64 variable, that both variables are initialised in one run of the session, and what Keras does with names, None and callables is taken from tensorflow 1.x.

### C77 Saving whole models and rebuilding layers from their configuration

from_config(get_config()) gives back every layer whose class overrides get_config or takes no arguments; written to JSON and loaded, a network of such layers with ordinary arguments comes back with layers that do the same. Not so: PeriodicPadding with a (before, after) entry, which JSON turns into a list and the rebuilt layer raises TypeError on every call; LayerNormalization, rebuilt silently with the default epsilon; ComplexDense and the complex convolutions (missing arguments, TypeError); PlusMinusOneToOneHot, CombineAutoregressiveConditionals, EqualUpDownSpins, FlipSpins (function passed twice, TypeError); ToOneHot and NormalizeInLogSpace (functools.partial, AttributeError already when saving). Hence CheckpointByTime with its default save_weights_only=False raises at the first save for every autoregressive machine of any depth, width and options, and the RBM machines are either refused or written to files that cannot be loaded; probabilistic ensembles cannot be saved either. A model compiled with stochastic reconfiguration can never be saved with its optimizer: get_config of the optimizer raises AttributeError.

* Ranges over: all argument values, all lists of layers, all machines with all hyper-parameters, lenient and strict releases of tensorflow.
* Code: `deepar/layers/padding.py` (PeriodicPadding); `deepar/layers/gathering.py` (GatherLayer); `deepar/layers/casting.py` (CastingLayer); `deepar/layers/wrappers.py` (WeightNormalization); `deepar/layers/one_hot.py` (ToOneHot, PlusMinusOneToOneHot); `deepar/layers/autoregressive.py` (NormalizeInLogSpace, CombineAutoregressiveConditionals); `layers/transition_invariants.py` (Roll); `callbacks/checkpoint.py` (CheckpointByTime); `machines/abstract_machine.py` (AutoNormalizedAutoregressiveMachine, AutoregressiveMachine); `machines/ensemble.py` (make_2d_obc_invariants, make_pbc_invariants, make_up_down_invariant); `optimizers/complex_values_optimizer.py` (ComplexValuesOptimizer.get_config).
* Files: `ConfigProps.v`; model: `ConfigModel.v`, `IsingModel.v`, `TensorModel.v`.
* Modelled and proved: JSON maps every writable value to its normal form (tuples to lists), by nested induction on values; each class is then computed symbolically. The machines are concatenations of ordinary pieces followed by the layers of the abstract class, of which one has no configuration.
* Status: proved. Theorems: `C77_clone`, `C77_saved_and_loaded`, `C77_optimizer_refuted`, `C77_padding_refuted`, `C77_lambda_refuted`, `C77_no_config_refuted`, `C77_machines_refuted`, `C77_machine_bodies`, `C77_ensembles`.
* Scope: C77_padding_refuted, C77_lambda_refuted, C77_no_config_refuted and C77_machines_refuted: the claims are false. What Keras does (Layer.get_config and from_config, Lambda, Wrapper, JSON) is taken from tensorflow 1.x; the refusal of layers with arguments and no get_config is a parameter. Connections, weights and optimizer state in the file are not modelled; every class is registered as a custom object.

### C78 Complex convolutions: arguments, values, shortcuts and patches

A ComplexConv1D/2D/3D made with integer arguments and padding valid or same (any case) computes the complex convolution sum in every number of dimensions, with tensorflow's output sizes and zero padding, then adds the bias and applies the activation; the fast sampler accepts it exactly with valid padding; strides together with dilations raise ValueError. normalize_tuple returns n values that int() accepts or raises ValueError, but not as documented: digit strings and fractions pass unchanged, numpy integers are refused, None inside a tuple raises TypeError; the error message of normalize_padding offers causal, which is always refused. conv2d_complex, including its matrix product shortcut, is the convolution for channels last without dilation and whenever the shortcut is not taken; with dilations the shortcut ignores them, and for channels first it mixes up the axes. extract_complex_image_patches returns the pixels under the kernel, and multiplying them by the flattened kernel is the convolution; clipping moves imaginary parts to [0, 2 pi) without changing exponentials.

* Ranges over: all ranks, sizes, strides, dilations, channels, kernels and images; all argument values.
* Code: `layers/complex/conv.py` (normalize_tuple, normalize_padding, _ComplexConv, ComplexConv1D, ComplexConv2D, ComplexConv3D); `layers/complex/tensorflow_ops.py` (keras_conv_to_complex_conv, conv2d_complex, extract_complex_image_patches); `deepar/graph_analysis/convolutional_topology.py` (ConvolutionalTopology).
* Files: `ComplexConvProps.v`; model: `ComplexConvModel.v`, `IsingModel.v`, `OrderingModel.v`.
* Modelled and proved: Each axis is a ceiling division; the padded pixel is the pixel at the shifted integer position or zero; the four real convolutions are the real and imaginary parts of the complex sum. Reshapes are sums over products of ranges.
* Status: proved. Theorems: `C78_layer`, `C78_defaults`, `C78_strides_and_dilations`, `C78_negative_kernel_size`, `C78_normalize_tuple`, `C78_normalize_tuple_refuted`, `C78_normalize_padding`, `C78_causal_refuted`, `C78_conv2d`, `C78_conv2d_batch_and_channels`, `C78_dilations_ignored_refuted`, `C78_channels_first_refuted`, `C78_patches`, `C78_patches_too_large`, `C78_patches_times_kernel`.
* Scope: C78_normalize_tuple_refuted, C78_causal_refuted, C78_dilations_ignored_refuted and C78_channels_first_refuted: the claims are false. The real convolutions of tensorflow are modelled from their documentation (pad, then slide), on real numbers; sizes are positive. Floats and strings that pass normalize_tuple are not followed into tensorflow; infinite floats are left out.

### C79 Automatic differentiation: forward mode from two backward passes, complex gradients and the matrix-free product

The gradients that the optimizers build by adding nodes to the graph are derivatives: tf.gradients returns the adjoint of the derivative of the outputs and None exactly for what no output depends on. forward_mode_gradients, which differentiates a backward pass with respect to placeholders, returns the velocity of every output along the given directions, None exactly for outputs that depend on no input, and never reads its placeholders (which hold nan). For weights stored as pairs of real and imaginary parts, get_model_parameters_complex_value_gradients returns the adjoint of the complex jacobian O times the given gradients (with conjugate_gradients=True), or the transpose of O times their conjugates, and raises ValueError exactly when a weight has no influence; get_predictions_jacobian_vector_product returns O v. The mean of the derivatives, the gradient of the energy loss and the product built from forward and backward passes are therefore the mean of O, the energy gradient divided by the batch size, and the product with the regularised covariance matrix of stochastic reconfiguration.

* Ranges over: all graphs of complex additions, products, conjugations, real and imaginary parts and differentiable elementwise functions, all values, all weights, vectors and batch sizes.
* Code: `optimizers/utils.py` (forward_mode_gradients); `optimizers/complex_values_optimizer.py` (to_complex_tensors, ComplexValuesOptimizer); `optimizers/stochastic_reconfiguration/optimizer.py` (ComplexValuesStochasticReconfiguration); `optimization/loss.py` (loss_for_energy_minimization).
* Files: `AutodiffProps.v`; model: `AutodiffModel.v`.
* Modelled and proved: One invariant of the backward walk: the pending contributions, weighted with the motions of their nodes, keep their sum. Node values are perturbed along curves, so that real and complex derivatives are limits. The forward mode uses the invariant twice: the first backward pass is linear in the placeholders, so the second one does not read them. Dependence is followed through the added nodes in the same way.
* Status: proved. Theorems: `C79_values`, `C79_gradients`, `C79_none`, `C79_forward_mode`, `C79_placeholders`, `C79_unused_weight`, `C79_vector_jacobian_product`, `C79_stored_weights`, `C79_jacobian_vector_product`, `C79_mean_gradient`, `C79_energy_loss`, `C79_product`.
* Scope: tf.gradients is modelled: it walks the graph backwards, adds the gradient nodes of each operation with TensorFlow's conventions for complex numbers, and sums several contributions. Tensors are taken apart into scalar nodes; operations are additions, products, conj, real, imag, complex, constants and elementwise functions with known derivatives. While loops and gather are not operations of the model. That the predictions have a complex jacobian is a hypothesis, shown for an example; that the layers of the library give one is C34 and C49.

### C80 Command lines: what the options of the scripts mean, and the configuration file

For the parsers of the experiment scripts, examples/ising.py and examples/benchmark.py: every command line made of options (exact or uniquely abbreviated, followed by their arguments or with '='), in any order and with repetitions, gives each attribute the last value written for it or its default, and is refused with status 2 when a required option is missing, an abbreviation is ambiguous or an argument cannot be read. The commands of experiments/README.md give the configurations of which the other claims speak. Conversely, whatever is written, an accepted command line gives every attribute a value of its type. The options --gamma and --use_pbc only work before the subcommand: after it they are always refused. config.json holds the attributes in order without func, with a single batch size or learning rate as a list of lists, and nothing is written when the stages do not fit. In examples/benchmark.py an option without value gives None and not the default, and an option before the framework takes the framework for its value; examples/ising.py accepts a missing gamma. The last of --use_pbc and --no_pbc before the subcommand decides the boundary, which is open without them. Likewise the last of the switches for weight normalization and for horovod after the subcommand decides; without them weights are normalized and horovod is off.

* Ranges over: all command lines, all strings, all readings of floating point numbers.
* Code: `experiments/train.py` (create_training_config_parser, to_valid_stages_config, save_config); `experiments/run_evaluation.py` (create_evaluation_config_parser); `experiments/ising_runner.py` (main); `experiments/heisenberg_runner.py` (main); `examples/ising.py` (get_params); `examples/benchmark.py` (define_args_parser).
* Files: `CommandLinePbcProps.v`, `CommandLineProps.v`; model: `CommandLineModel.v`, `RunnerModel.v`, `StagesModel.v`.
* Modelled and proved: The classification of a list of settings is computed word by word (flags start with a dash, arguments are plain), then the loop of parse_known_args takes one setting per step. For arbitrary command lines an invariant of the loop says that only options store and that they store values of their type.
* Status: proved. Theorems: `C80_boundary`, `C80_defaults`, `C80_switches`, `C80_options`, `C80_subcommands`, `C80_scripts`, `C80_documented`, `C80_values`, `C80_gamma`, `C80_late_refuted`, `C80_ambiguous`, `C80_bad_value`, `C80_integers`, `C80_underscores`, `C80_config_file`, `C80_config_errors`, `C80_benchmark`, `C80_benchmark_default_refuted`, `C80_example_gamma`, `C80_example_gamma_refuted`.
* Scope: The part of argparse that the scripts use is modelled from its documentation and source: classification of the words, abbreviations, joined short options, '=', '--', negative numbers, nargs, choices, required options, subcommands, positional choices. Which strings float() reads is a parameter; messages, the text of config.json and environment are not modelled. The refuted theorems are the options after the subcommand, the defaults of benchmark.py and the missing gamma.

### C81 The network of examples/benchmark.py: value, symmetries and long kernels

For a ring of n sites and kernels of at most n + 1 sites, the network built by run_pyket (periodic padding on the right, complex convolutions without bias, lncosh, sum over sites and channels) predicts for each row the sum over sites and channels of the layers on the ring, for any depth, width and weights. It gives the same prediction for a configuration turned around the ring, and with at least one layer for the configuration with all spins flipped. For longer kernels the padding goes around only once: every layer loses sites, the prediction is no longer the same for turned configurations, and when no place is left the layers raise ValueError.

* Ranges over: all ring sizes, kernel sizes, widths, depths, complex weights and batches of rows.
* Code: `examples/benchmark.py` (run_pyket); `layers/padding.py` (PeriodicPadding); `layers/complex/conv.py` (ComplexConv1D); `layers/complex/tensorflow_ops.py` (lncosh).
* Files: `BenchmarkProps.v`; model: `BenchmarkModel.v`, `ComplexConvModel.v`, `ComplexModel.v`.
* Modelled and proved: One layer is computed with the theorem on default convolutions (C78_defaults); the layers compose by induction over the depth. Turning the ring permutes the sites and commutes with every layer; flipping negates the argument of the first lncosh, which is even. The witness for long kernels is a ring of three sites with a kernel of five.
* Status: proved. Theorems: `C81_network`, `C81_translation`, `C81_flip`, `C81_any_kernel`, `C81_translation_refuted`.
* Scope: The layers are those of C09 (padding), C78 (convolutions) and C45 (lncosh), composed as in benchmark.py:24-36. Only the network of run_pyket is modelled; sampling, optimizer and timing are covered by other claims or left out, the netket branch is left out. kernel_size is positive.

### C82 One step of stochastic reconfiguration with any options: jacobian, solvers, statistics

The explicit jacobian has one row per example, ordered as the direction is cut into tensors afterwards. Cholesky factorisation succeeds exactly for positive definite matrices and the substitutions solve the system; elimination succeeds exactly for regular matrices. With a real positive shift both direct solvers return the only solution of (covariance + shift) x = gradient, and the iterative solver, with or without the explicit jacobian, returns a vector within tol * norm(gradient) / shift of it. Without a shift and with no more examples than weights both direct solvers raise. The reported rank counts the eigenvalues above a bound and is below the number of examples; the reported smallest eigenvalue is never zero although the smallest eigenvalue is zero when there are no more examples than weights. Metrics, assertions and the comparison of version strings follow the options; versions 1.2 to 1.9 are taken for later than 1.14.

* Ranges over: all jacobians, shapes of weights, batch sizes, gradients, real shifts, tolerances, options and version strings.
* Code: `optimizers/stochastic_reconfiguration/optimizer.py` (ComplexValuesStochasticReconfiguration.get_updates, compute_wave_function_gradient_covariance_inverse_multiplication_directly, _update_s_matrix_stats, metrics); `optimizers/complex_values_optimizer.py` (get_predictions_jacobian, ComplexValuesOptimizer.__init__); `optimizers/utils.py` (tensors_to_matrix).
* Files: `SolverProps.v`; model: `IsingModel.v`, `ReconfigurationModel.v`, `SolverModel.v`.
* Modelled and proved: Cholesky and substitution by induction on the dimension with the Schur complement: the quadratic form splits into a square and the form of the complement. Elimination keeps the set of solutions; without a pivot the first unit vector is in the kernel. Fewer equations than unknowns have a non-zero solution, by the same elimination; the rows of the centred jacobian sum to zero, so one can be left out. The bound on the rank is the bound on orthogonal vectors applied to the images of the eigenvectors and the vector of ones.
* Status: proved. Theorems: `C82_jacobian`, `C82_cholesky`, `C82_elimination`, `C82_direct`, `C82_no_shift_refuted`, `C82_direction`, `C82_assertions`, `C82_statistics`, `C82_smallest_eigenvalue_refuted`, `C82_metrics`, `C82_version`, `C82_version_refuted`.
* Scope: Floating point numbers are exact; in floating point a singular matrix may pass elimination. tf.linalg.cholesky, cholesky_solve and solve are modelled by their algorithms, tf.linalg.eigvalsh by the numbers it returns with the hypothesis that they have orthonormal eigenvectors. The combination of the iterative solver, products from derivatives and a gradient not from the loss is excluded in C82_direction; C48_jvp_gradient_refuted shows that it is wrong. A single weight is excluded for the iterative solver (C48_single_weight_refuted). Whether Optimizer has _set_hyper is a parameter.

### C83 Restricted Boltzmann machines under stochastic reconfiguration: shapes, amplitude, jacobian, step, energy

RBM and RBMSym create weights of the stated shapes, and the amplitude is exp(sum a_v s_v) times the product of cosh of what enters the hidden units. Back propagation, operation by operation, with the order of the weights and the sign of the imaginary variables, gives the logarithmic derivatives of the amplitudes with respect to the complex weights, and these are determined uniquely. One training step moves the complex weights by minus the learning rate times the solution of (covariance of the derivatives + shift) x = covariance of the derivatives and the local energies: exactly with a direct solver, within the tolerance with the iterative one. For the exact distribution the slope of the energy along any motion of the weights is twice the real part of velocity times conjugate force; with a positive shift the equations have a solution, and moving against it lowers the energy at least by twice the shift times its squared length. At weights where the covariance of the derivatives and the local energy is not zero, every small enough step against the solution gives weights with a lower energy.

* Ranges over: all lattices, numbers of hidden units, complex weights without vanishing cosh, batches, local energies, shifts, hermitian operators and smooth motions of the weights.
* Code: `machines/rbm.py` (RBM.build_predictions, RBMSym.build_predictions); `layers/complex/dense.py` (ComplexDense.build, TranslationInvariantComplexDense.build); `layers/complex/tensorflow_ops.py` (lncosh, complex_log); `layers/complex/base_layer.py` (ComplexLayer.add_complex_weight); `machines/abstract_machine.py` (Machine.predictions_jacobian); `examples/rbm_heisenberg_1d_sr.py` (fit_generator).
* Files: `RbmStepProps.v`; model: `ComplexModel.v`, `IsingModel.v`, `ObservableModel.v`, `OrderingModel.v`, `RbmModel.v`, `ReconfigurationModel.v`, `SolverModel.v`, `SymmetryModel.v`.
* Modelled and proved: The derivative of exp(lncosh) is taken instead of that of lncosh, which jumps; what enters the hidden units is linear in the weights, so that the pairing of the gradients with a velocity is the sum of tanh times the same formula for the velocities. For the symmetric machine the sums over translations are exchanged and rolled back. The step combines C82_direction, C48_gradient_is_covariance and C48_update. The slope is that of the expectation value (ExactGradientProofs.v) rewritten as a covariance; solvability by elimination since the quadratic form is at least shift times the norm.
* Status: proved. Theorems: `C83_shapes`, `C83_refused`, `C83_amplitude`, `C83_jacobian`, `C83_step`, `C83_energy_slope`, `C83_solvable`, `C83_downhill`, `C83_lowers`, `C83_unique`.
* Scope: Floating point numbers are exact. The gradients of the tensorflow operations are written down from the documentation of tensorflow (incoming gradient times the conjugate derivative) and are part of the model; weights at which a cosh vanishes are excluded, the code divides by zero there. use_energy_loss and compute_jvp_instead_of_full_jacobian are left out of C83_step (C82 and C48 speak of them). The energy statements are about the exact distribution; the batch enters through the covariances of C83_step.

### C84 Hamiltonian sampling with wrapped NetKet operators and with the J1-J2 operator

With the test for zero elements switched on, the wrapper offers the sampler exactly the configuration itself and the configurations with a matrix element that is not zero, and what it remembers from earlier calls has no influence on any number of sweeps. For Hermitian operators whose connections are listed once |psi|^2 therefore satisfies detailed balance. The J1-J2 operator offers the exchanges of opposite spins on its bonds, |psi|^2 is stationary, and a chain converges to |psi|^2 restricted to the total spin it starts with, for every j2. Without the test for zeros (the default when no maximal number of connections is given) this holds if all configurations have equally many connections; otherwise the sampler is offered, and moves to, a configuration of zeros.

* Ranges over: all operators given by their connections, wrapper states, amplitudes, numbers of chains and sweeps; all grids, couplings and boundary conditions for J1-J2.
* Code: `samplers/metropolis_hastings.py` (MetropolisHastingsHamiltonian._sweep); `operators/netket_operator.py` (NetketOperatorWrapper.__init__, NetketOperatorWrapper.new_netket_find_conn); `operators/j1j2.py` (j1j2_two_dim_operator).
* Files: `NetketSamplerProps.v`; model: `ExactModel.v`, `J1J2Model.v`, `J1J2OperatorModel.v`, `MetropolisModel.v`, `NetketModel.v`, `NetketSamplerModel.v`, `ObservableModel.v`.
* Modelled and proved: The used rows are computed from the columns of the padded arrays; symmetry of the proposals follows bond by bond because exchanging two opposite spins is an involution. Convergence reuses the connectedness of the nearest neighbour bonds (C64). A sweep reads only the used connections, which do not depend on the remembered number, hence the equality of runs.
* Status: proved. Theorems: `C84_wrapper`, `C84_hermitian`, `C84_memory`, `C84_same_count`, `C84_padding_offered`, `C84_default_wrapper_refuted`, `C84_j1j2`, `C84_j1j2_converges`.
* Scope: NetKet is a parameter (a function from configurations to their connections), for J1-J2 it is modelled from its meaning. Amplitudes are finite. The witness of C84_default_wrapper_refuted is an operator that accepts a configuration of zeros; what NetKet itself does with one is not modelled.

### C85 Metropolis sampling with amplitudes that vanish, overflow or are not a number

The samplers compute the acceptance ratio in complex arrays. For finite amplitudes the result is the one of real arithmetic, so the theorems about Metropolis sampling apply. The samplers with symmetric proposals raise exactly if the logarithm of a candidate's amplitude is not finite. A chain whose current amplitude vanishes, overflows or is nan never moves again, in all samplers, even if every candidate is better. The Hamiltonian sampler does not raise: it never accepts a candidate whose modulus is not finite, and treats a phase that is nan like any other. With a machine that vanishes outside total spin zero the local sampler raises or returns its initial configurations, and the exchange sampler raises at once unless all chains start inside, where it stays.

* Ranges over: all machines with values in the extended numbers, operators, numbers of chains and sweeps, and random inputs.
* Code: `samplers/metropolis_hastings.py` (MetropolisHastingsSymmetricProposal._sweep, MetropolisHastingsHamiltonian._sweep, MetropolisHastingsSampler.__init__).
* Files: `MetropolisFloatProps.v`; model: `ExactModel.v`, `McmcStatsModel.v`, `MetropolisFloatModel.v`, `MetropolisModel.v`, `ObservableModel.v`.
* Modelled and proved: The ratio of non finite differences is computed case by case: its imaginary part is nan and its exponential never exceeds a number in [0,1). Runs of sweeps follow by induction; the machine of total spin zero follows because a local flip changes the total spin and an exchange does not.
* Status: proved. Theorems: `C85_finite_symmetric`, `C85_finite_hamiltonian`, `C85_raises`, `C85_frozen_symmetric`, `C85_frozen_hamiltonian`, `C85_never_enters`, `C85_phase_not_tested`, `C85_local_zero_spin`, `C85_exchange_zero_spin`, `C85_order`, `C85_finite_arithmetic`, `C85_special_values`.
* Scope: numpy's complex arithmetic (multiplication, minimum, greater, exp) is modelled for infinities and nan; finite results are exact real numbers, so overflow inside exp and rounding are not modelled. The frozen chain comes from infinity times the imaginary part 0 of 2.0, which is nan, and from greater being false if an imaginary part is nan.

### C86 Averages over the batches of the Metropolis samplers converge to the averages under |psi|^2, with rates

The batch of a call of __next__ consists, chain by chain, of the states after warm-up and then after every (unused_sampels + 1)-th sweep of the trajectory that the chain makes with its own random numbers. For every observable the mean square error of the batch average against the mean under the limit distribution is at most a / (number of samples) + d / (samples per chain)^2, with constants that do not depend on the number of chains, their starts, the warm-up or the thinning; the bias is at most d / (samples per chain); and every error becomes as unlikely as wanted. This holds for local moves (unless all moduli are equal), uniform proposals and Ising moves with the limit |psi|^2, so the energy of the training step converges to the expectation of H; for exchange, Heisenberg and J1-J2 moves the limit is |psi|^2 restricted to the total spin of the start, so for a Hamiltonian that conserves the total spin the energy converges to that of the projected wave function, and averages of observables whose mean depends on the total spin stay away from their mean under |psi|^2. For the independent rows of autoregressive samplers an energy error of eps has probability at most fluctuation / (batch size * eps^2).

* Ranges over: all lattices, wave functions, observables, numbers of chains, starts, warm-up and thinning, numbers of recorded samples.
* Code: `samplers/metropolis_hastings.py` (MetropolisHastingsSampler.__next__, MetropolisHastingsSampler.warn_up, MetropolisHastingsSymmetricProposal._sweep); `optimization/variational_monte_carlo.py` (VariationalMonteCarlo.next_batch, VariationalMonteCarlo._update_batch_local_energy); `operators/j1j2.py` (J1J2).
* Files: `ErgodicProps.v`, `ErgodicSectorProps.v`; model: `ExactModel.v`, `HeisenbergModel.v`, `IsingModel.v`, `J1J2Model.v`, `J1J2OperatorModel.v`, `MetropolisModel.v`, `MonteCarloModel.v`, `NetketModel.v`, `NetketSamplerModel.v`, `ObservableModel.v`.
* Modelled and proved: The second moment of the sum of recorded deviations is computed by recursion over the sweeps: the cross terms are the conditional means, bounded by the geometric convergence of C64. Chains are independent, so their second moments add up and their biases multiply. Chebyshev's inequality gives the probabilities. The batch is identified with the recorded trajectories by the bookkeeping lemmas of C40. For fixed total spin the limit of the energy is computed for the wave function restricted to that sector, which is again an expectation of H because H does not connect sectors.
* Status: proved. Theorems: `C86_batch`, `C86_averages`, `C86_bias`, `C86_law_of_large_numbers`, `C86_local`, `C86_uniform`, `C86_exchange`, `C86_exchange_refuted`, `C86_hamiltonian`, `C86_ising`, `C86_heisenberg`, `C86_energy`, `C86_independent`, `C86_j1j2`, `C86_sector_energy`.
* Scope: Weak law of large numbers with explicit rates for all Metropolis samplers, and for independent rows; wrong limit with exchange moves shown.

### C87 Sizes of samplers and generators: copies, rows that come back, mini batches, and the validation batch

A sampler has the batch size it was made or copied with and a mini batch size that is at most that; copies inherit neither, and only the two autoregressive samplers can be copied. All samplers but the fast one return batch_size rows; the fast one leaves out the remainder of the division by its mini batch size, always less than half of the rows. VariationalMonteCarlo serves the rows of one call of the sampler in consecutive slices, labelled with conj(E_loc - mean over the rows) / nominal batch size, and then calls the sampler again; set_sampler starts anew. When the sampler and the generator have the same mini batch size every mini batch is full and every row is served once; otherwise mini batches can be uneven or empty. The mean gradient of N rows with nominal batch size B is (N - 1) / (N B) times the energy gradient. In the stages of the training scripts no row is lost in training; the validation batch can be smaller than min(8 batch_size, 2^15), by less than the mini batch size. The evaluation batch size has no influence.

* Ranges over: all sizes, sampler classes, sequences of calls with changing weights, operators and wave functions.
* Code: `deepar/samplers/base_sampler.py` (Sampler.__init__, Sampler._set_batch_size); `deepar/samplers/fast_autoregressive.py` (FastAutoregressiveSampler.copy_with_new_batch_size, FastAutoregressiveSampler.__next__); `deepar/samplers/autoregressive.py` (AutoregressiveSampler.copy_with_new_batch_size); `optimization/variational_monte_carlo.py` (VariationalMonteCarlo.__init__, VariationalMonteCarlo.set_sampler, VariationalMonteCarlo.next_batch); `optimization/mini_batch_generator.py` (MiniBatchGenerator.set_batch_size, MiniBatchGenerator.next_mini_batch_size); `experiments/train.py` (train).
* Files: `BatchesProps.v`; model: `BatchesModel.v`, `ConfigModel.v`, `ExactModel.v`, `MonteCarloModel.v`, `ObservableModel.v`, `StagesModel.v`, `TrainingModel.v`.
* Modelled and proved: BatchesModel.v holds the objects (sampler with class and sizes, generator with its state), the constructors, copies, set_sampler and the mini batches with failures as values. The proof follows the state through one cycle (first mini batch fetches, the others slice), and the gradient comes from the covariance lemma of C63 with the nominal batch size kept apart from the number of rows.
* Status: proved. Theorems: `C87_new_sampler`, `C87_copies`, `C87_rows`, `C87_cycle`, `C87_parts`, `C87_full_parts_refuted`, `C87_gradient`, `C87_evaluation`, `C87_set_sampler`, `C87_stages`, `C87_validation_refuted`.
* Scope: C87_cycle describes every mini batch of a generator (the state after a cycle meets the hypotheses again). C87_full_parts_refuted: sampler mini 6, generator mini 2, batch 10 gives two empty mini batches; generator mini 5 gives mini batches of 5 and 1. C87_validation_refuted: batch 5000, mini 1000 validates with 32000 samples instead of 32768.

### C88 Training on all configurations is gradient descent on the energy and converges

Training with ExactVariational, an optimizer converted to accumulate num_of_batch_until_full_cycle gradients and the energy loss, as in the exact examples, makes one update per cycle. The update hands the wrapped optimizer the gradient of the energy at the weights before the cycle, divided by the batch size (gradients summed) or by the number of configurations (averaged). Inside a cycle the weights rest and the arrays are filled once per cycle. With plain SGD a small enough learning rate lowers the energy in one cycle unless the gradient is zero; for an L-smooth energy and effective step a with a L < 2 the energies decrease and converge, the gradients tend to zero, and the smallest squared gradient of K cycles is at most (E0 - m) / (a (1 - a L / 2) K) for every lower bound m. For the three convolutional machines the descent needs no assumption about back propagation: where no activation function is at a point without a derivative, their gradients give the slope of the loss along every line through the weights.

* Ranges over: all operators that represent a hermitian matrix, up to 31 spins, all accepted batch sizes, all differentiable machines, all wrapped optimizers (first part) or learning rates (second part), all numbers of steps.
* Code: `optimization/exact_variational.py` (ExactVariational.to_generator, ExactVariational.machine_updated); `optimizers/accumulate_gradient_optimizer.py` (convert_to_accumulate_gradient_optimizer); `optimization/loss.py` (loss_for_energy_minimization); `examples/basic_autoregressive_exact_gradient.py` (model); `examples/j1j2_2d_exact_4.py` (exact_variational); `machines/simple_conv_net_autoregressive_1D.py` (SimpleConvNetAutoregressive1D); `machines/complex_values_simple_conv_net_autoregressive_1D.py` (ComplexValuesSimpleConvNetAutoregressive1D); `machines/conv_net_autoregressive_2D.py` (ConvNetAutoregressive2D).
* Files: `ExactTrainingProps.v`, `LineGradientProps.v`; model: `AutoregressiveModel.v`, `ExactCallbackModel.v`, `ExactModel.v`, `ExactTrainingModel.v`, `GradientModel.v`, `IsingModel.v`, `MachinesModel.v`, `ObservableModel.v`, `TrainingModel.v`.
* Modelled and proved: exact_fit threads the generator of ExactModel.v and the accumulating optimizer of TrainingModel.v. Inside a window the weights are constant, so the run of the generator is that of a constant machine (one_cycle) and the accumulators add up the mean gradients; over a cycle these are the gradient of the energy by loss_slope (the loss with the coefficients p conj(E_loc - E) has the slope of the Rayleigh quotient). Descent follows from the sign of the slope along the negative gradient, convergence from the descent inequality, a lower bound of the Rayleigh quotient and telescoping. For the machines, the rules of LayerRelationProofs.v (a relation that respects zero, sums and products is respected by every layer) are used twice: with the relation 'is the derivative of' (C71) and with the relation 'has the combination of the slopes' (LineGradientProofs.v), which makes slopes linear in the direction.
* Status: proved. Theorems: `C88_updates`, `C88_descent`, `C88_convergence`, `C88_line_gradients`, `C88_machines_descend`.
* Scope: Exact arithmetic. Back propagation is the hypothesis loss_gradient (derivatives of the loss of one sample with respect to each weight), for C88_descent line_gradient (along every line); C88_line_gradients proves it for the three convolutional machines, C88_machines_descend is the descent for them without this hypothesis. Smoothness is a hypothesis of C88_convergence; the example is one spin in a transverse field, energy -cos(2t), L = 8. The callbacks of the examples are left out here (C61).

### C89 The unitary rotation of the Heisenberg operator keeps the energies exactly on lattices without odd rings

Heisenberg(unitary_rotation=True), the default, changes the off-diagonal element from 2 to -2. On open chains and grids and on periodic ones whose sides are even (or 1) the rotated matrix is the unrotated one between the signs of one sublattice, so psi has with it the energy that sign*psi has without it, with the same probabilities, and both have the same ground energy. On every other periodic chain or grid no invertible diagonal matrix takes one to the other, and on the ring of three spins the default operator reaches energies below all energies of the Heisenberg model. With the rotation (and for the Ising operator with h >= 0) removing the phases of a wave function never raises the energy; without it this is false for two spins.

* Ranges over: all chains and grids, open and periodic, all wave functions; reported energies up to 31 spins and all accepted batch sizes and histories.
* Code: `operators/heisenberg.py` (Heisenberg.__init__, HeisenbergFindConn.calc_conn_and_mel); `operators/ising.py` (Ising.find_conn); `optimization/exact_variational.py` (ExactVariational.machine_updated).
* Files: `RotationProps.v`; model: `ExactModel.v`, `HeisenbergModel.v`, `ObservableModel.v`.
* Modelled and proved: An exchange of opposite spins on a bond changes the product of the spins of one sublattice by -1, since every bond joins the two sublattices unless it closes an odd ring. Conversely a diagonal transformation would change sign along every bond when a single up spin moves; around an odd ring this makes it zero. Removing phases: off-diagonal elements are not positive and cos <= 1.
* Status: proved. Theorems: `C89_rotation`, `C89_energies`, `C89_reported`, `C89_exactly_bipartite`, `C89_odd_ring_refuted`, `C89_modulus`, `C89_unrotated_refuted`.
* Scope: The matrices are those that C21 and C20 prove the code to implement; C89_reported goes through the modelled ExactVariational. Exact arithmetic. C89_exactly_bipartite shows the condition is sharp for diagonal transformations; that the spectra differ is shown for the ring of three spins only.

### C90 The total spin that the exact J1-J2 example logs is the number of sites for every wave function

total_spin_netket_operator builds a graph whose edges join every site with itself. The operator it gives is the number of sites times the identity, whatever configurations it was called with, so the ExactObservableCallback of the example logs the number of sites for every machine. This is not the total spin: the sum over all pairs of sites of sigma_i sigma_j has the value n(n+2) on the wave function with equal amplitudes and 0 on the singlet of two spins. The true total spin commutes with the unrotated Heisenberg matrix and with the J1-J2 matrix, so it is a conserved quantity worth logging; it does not commute with the rotated Heisenberg matrix, which is the default.

* Ranges over: all lattice shapes, all drawn configurations, all histories of calls, all machines; logging up to 31 spins and all accepted batch sizes.
* Code: `examples/j1j2_2d_exact_4.py` (total_spin_netket_operator); `operators/netket_operator.py` (NetketOperatorWrapper.__init__, NetketOperatorWrapper.find_conn); `operators/j1j2.py` (j1j2_two_dim_operator); `operators/heisenberg.py` (Heisenberg.find_conn).
* Files: `TotalSpinProps.v`; model: `ExactCallbackModel.v`, `ExactModel.v`, `J1J2Model.v`, `J1J2OperatorModel.v`, `NetketModel.v`, `ObservableModel.v`, `TotalSpinModel.v`.
* Modelled and proved: On an edge (i,i) both spins agree, so only the diagonal element 1 is left and no exchange happens; the sum over the sites is n. The total spin sums the exchange over all pairs; the exchange of i and j permutes the pairs, so conjugating the sum with it changes nothing.
* Status: proved. Theorems: `C90_operator`, `C90_logged`, `C90_total_spin_refuted`, `C90_conserved`, `C90_rotated_refuted`.
* Scope: NetKet is external: CustomGraph is assumed to accept edges that join a site with itself, and GraphOperator is modelled from its meaning, acting on the values of both end points of such an edge as for other edges. Exact arithmetic. The value of the total spin is given for the uniform wave function and the singlet of two spins.

### C91 Training with sampled batches and SGD lowers the energy on average, with a rate

A run of the fast sampler, the generator, gradient accumulation and SGD reaches after k updates the weights given by the batches drawn, with steps of length a = lr (gradients averaged) or lr times the number of mini batches (gradients summed); each sequence of batches is drawn exactly if the uniform random numbers lie in certain intervals, whose total volume is its probability. If the energy is smooth with constant L, one update lowers it on average by a (B-1)/B^2 |grad|^2 up to L a^2/2 times the mean square of the update, and that mean square is at most D (B-1)/B^3 times the fluctuation of the local energy. So over K updates the average squared gradient is at most (E(w0)-m) B^2 / (a (B-1) K) + L a D V / (2B). With one row per batch the weights never change.

* Ranges over: all machines the fast sampler accepts, all hermitian operators, batch sizes, mini batch sizes, weights, random numbers, numbers of updates.
* Code: `optimization/variational_monte_carlo.py` (VariationalMonteCarlo.next_batch); `deepar/samplers/fast_autoregressive.py` (FastAutoregressiveSampler.__next__); `optimizers/accumulate_gradient_optimizer.py` (convert_to_accumulate_gradient_optimizer); `optimization/loss.py` (loss_for_energy_minimization).
* Files: `DescentProps.v`; model: `AutoregressiveModel.v`, `DescentModel.v`, `ExactModel.v`, `ExactTrainingModel.v`, `FastMachineModel.v`, `GraphModel.v`, `IsingModel.v`, `MachinesModel.v`, `MonteCarloModel.v`, `ObservableModel.v`, `OrderingModel.v`, `PipelineModel.v`, `TensorModel.v`, `TrainingModel.v`.
* Modelled and proved: The update is (B-1)/B^2 times the gradient on average (C68), so the linear term of the smoothness bound gives the descent; the quadratic term is bounded by the convexity of the square and the exact mean of the sample variance. Averaging the step over the last batch of a path and telescoping gives the rate. The fluctuation is at most <H^2>, which is bounded over all wave functions.
* Status: proved. Theorems: `C91_run`, `C91_step`, `C91_noise`, `C91_fluctuation_bounded`, `C91_convergence`, `C91_single_row_refuted`.
* Scope: Exact arithmetic. SGD of Keras (external) is modelled as w - lr g. Smoothness of the energy and a bound D of the per sample gradients are hypotheses, met by the example machine; that the energies are bounded below and the fluctuations bounded is proved. The averages are finite sums over all sequences of batches; C91_run ties their weights to the random numbers of the code.

### C92 What the monitors of Keras see of the statistics of the library

custom_keras_model.py combines the default callbacks with ModelCheckpoint(monitor='energy/energy', save_best_only) and EarlyStopping(monitor='energy/relative_error'). With the default log_in_batch_or_epoch=True no key of the library is in the logs of an epoch, so no weights are ever saved and the training never stops early, whatever the energies are. With log_in_batch_or_epoch=False the file holds the weights of the end of the first epoch whose last batch had the lowest energy estimate; these weights have had one update more than those the estimate belongs to, so they need not be the best. The training then ends after the first epoch whose error is not below the error of the epoch before by more than min_delta. MCMCStats writes its four values per batch or per epoch as asked, and raises AttributeError in the first batch for samplers without calc_r_hat_value. The monitors maximise the acceptance ratio and minimise every other key.

* Ranges over: all energies, losses, monitored keys, numbers of steps and epochs, batch sizes, min_delta, patience 0 or 1.
* Code: `examples/custom_keras_model.py` (checkpoint, early_stopping, callbacks); `callbacks/monte_carlo/mcmc_stats.py` (MCMCStats.add_mcmc_logs, MCMCStats.on_batch_end, MCMCStats.on_epoch_end); `callbacks/monte_carlo/local_energy_stats.py` (LocalEnergyStats.on_batch_end, LocalEnergyStats.on_epoch_end); `callbacks/monte_carlo/__init__.py` (default_wave_function_stats_callbacks_factory).
* Files: `MonitorProps.v`; model: `CallbackModel.v`, `CheckpointModel.v`, `IsingModel.v`, `MonitorModel.v`, `TrainingModel.v`.
* Modelled and proved: The epoch logs with logging per batch are computed symbolically. With logging per epoch an invariant over the epochs: the best value of ModelCheckpoint is the first minimum so far, and the best value of EarlyStopping is the error of the epoch before, since with patience at most 1 every earlier epoch improved.
* Status: proved. Theorems: `C92_batch_logging_refuted`, `C92_checkpoint`, `C92_best_weights_refuted`, `C92_early_stopping`, `C92_mcmc_refuted`, `C92_mcmc_logged`, `C92_mode`.
* Scope: ModelCheckpoint, EarlyStopping and the order in which fit_generator calls the callbacks are those of tf.keras (external, modelled from its documented behaviour). TensorBoard and TerminateOnNaN write nothing to the logs; training that meets nan is left out.

### C93 Early stopping on bad eigen states, and what the reported variance says about the wave function

For a Hermitian operator the overlap of the wave function with any eigenvector of energy lambda is at most the fluctuation of the local energy divided by (E - lambda)^2, where the fluctuation is the reported variance plus the mean square of the imaginary part of the local energy. So with real local energies a variance of zero means an eigenstate, and BadEigenStateStopping stops only when the overlap with every eigenvector at or below the bound is smaller than variance_tol / (relative_error_to_stop * bound)^2, 1 / bound^2 by default. Refuted for complex amplitudes: only the real part is looked at; one spin in any field with the amplitudes exp(i w s) has reported variance 0 for every w, and the training is stopped, exact or sampled, although the wave function is no eigenstate and has overlap cos(w)^2 (3/4 for w = pi/6) with the ground state. Refuted for small energies: the tolerance for the variance is absolute, the one for the energy relative; in a field below 1/6 a wave function with overlap 9/10 is stopped. With horovod the energy is averaged over the workers but the variance is not, so workers with equal weights can decide differently. Averaging those variances over the workers gives the variance over all samples less the spread of the workers' energies: never too large, and right only if the workers' energies agree.

* Ranges over: all Hermitian operators, wave functions, eigenvectors, bounds, tolerances, epochs; for the refutations all fields and phases.
* Code: `callbacks/monte_carlo/bad_eigen_state_stopping.py` (BadEigenStateStopping.on_epoch_end); `observables/monte_carlo/observable.py` (BaseObservable.estimate); `optimization/exact_variational.py` (ExactObservable.update_local_energy); `examples/j1j2_2d_monte_carlo_4.py` (warly_stopping); `optimization/horovod_variational_monte_carlo.py` (HorovodVariationalMonteCarlo._update_batch_local_energy).
* Files: `EigenAverageProps.v`, `EigenStoppingProps.v`, `EigenWorkersProps.v`; model: `CallbackModel.v`, `CheckpointModel.v`, `ExactCallbackModel.v`, `ExactModel.v`, `MonteCarloModel.v`, `ObservableModel.v`.
* Modelled and proved: <phi|(H - E) psi> = (lambda - E) <phi|psi> for a Hermitian H, and the Cauchy-Schwarz inequality over the configurations; the norm of (H - E) psi is the fluctuation. One spin is computed explicitly.
* Status: proved. Theorems: `C93_workers_variance`, `C93_fidelity`, `C93_zero_variance`, `C93_stops_far_away`, `C93_complex_refuted`, `C93_small_energies_refuted`, `C93_training_refuted`, `C93_workers_refuted`.
* Scope: The positive statements are about exact statistics, as exact training logs them (C61); for sampled batches the refutation holds for every batch, and C93_workers_variance is about one horovod step. The averaging of the logs is done by horovod, which is not modelled: the theorem is about the mean of the workers' variances. Uses the models of the callbacks (C54), of exact training (C61) and of sampled steps (C63).

### C94 The histogram layer returns the predictions and records angles of the wave function

LogSpaceComplexNumberHistograms returns its input unchanged. It records log |psi|^2 as magnitude, an angle of psi as phase, and the angle of psi in [0, 2 pi) as normalized_phase; magnitude with either angle gives psi back, and two entries agree in normalized_phase exactly when their amplitudes differ by a positive factor. Refuted for phase: entries with equal amplitudes are recorded any number of turns apart.

* Ranges over: all predictions (any number of entries, all complex logarithms).
* Code: `layers/complex/histograms.py` (LogSpaceComplexNumberHistograms.call).
* Files: `HistogramsProps.v`; model: `ComplexConvModel.v`, `HistogramsModel.v`.
* Modelled and proved: floormod by 2 pi has its range and keeps the complex exponential (lemmas of C78's patches); two angles in [0, 2 pi) with the same direction are equal because cos(a - b) = 1.
* Status: proved. Theorems: `C94_histograms`, `C94_phase_refuted`.
* Scope: The binning and writing of summaries is TensorFlow's and not modelled; floormod is exact.

## 4. Which code is modelled

Paths are relative to `src/flowket` unless they start with `examples` or `experiments`.

| python source | model | not modelled |
|---|---|---|
| `exact/utils.py` | `ExactUtilsModel.v`, `ExactVectorModel.v`, log-sum-exp in `AutoregressiveModel.v` | NetKet's numbering (any function) |
| `deepar/ordering/*` | `OrderingModel.v` | |
| `deepar/layers/padding.py`, `masking.py`, `gathering.py`, `casting.py` | `TensorModel.v`, configurations in `ConfigModel.v` | connections and weights in a saved model |
| `deepar/layers/autoregressive.py`, `one_hot.py` | `AutoregressiveModel.v` (one example), `EncodingModel.v` (whole tensors) | |
| `deepar/layers/wrappers.py` | `WeightNormModel.v` | Keras build protocol, gradients |
| `deepar/layers/layer_normalization.py` | `AxisModel.v` | |
| `deepar/graph_analysis/*` | `TopologyModel.v`, `GraphModel.v` | TensorFlow graph nodes (values instead) |
| `deepar/samplers/*` | `AutoregressiveModel.v`, `GraphModel.v`, `TrainingModel.v` | progress bar |
| `samplers/metropolis_hastings.py` | `MetropolisModel.v`, `MetropolisFloatModel.v`, `McmcStatsModel.v` | rounding |
| `samplers/exact_sampler.py`, `optimization/exact_variational.py` | `ExactModel.v` | |
| `machines/*autoregressive*`, `conv_net_autoregressive_2D.py` | `MachinesModel.v` (functions), `FastMachineModel.v` (layer graphs), `WrapperModel.v` (constructors), `GradientModel.v` (gradients) | reverse mode through tensor operations (C79 treats scalar graphs); gradients of the custom ordering machine |
| `machines/abstract_machine.py` | `WrapperModel.v`, `AutoregressiveModel.v`, `EqualSpinsModel.v`, `RbmModel.v` | |
| `machines/rbm.py`, `machines/ensemble.py`, `layers/dihedral_4_invariants.py`, `layers/transition_invariants.py`, `layers/complex/dense.py` | `SymmetryModel.v`, `RbmModel.v` (weights, gradients) | |
| `layers/spins_invariants.py` | `EqualSpinsModel.v`, `SymmetryModel.v` | |
| `layers/complex/tensorflow_ops.py`, `base_layer.py`, `initializers.py`, `conv.py` | `ComplexModel.v`, `InitializersModel.v`, `ComplexConvModel.v` | what tensorflow makes of fractional or string sizes |
| `layers/complex/casting.py` | `EncodingModel.v` | |
| `layers/complex/histograms.py` | `HistogramsModel.v` | bins and writing of the summaries |
| `utils/v1_to_v2.py`, `main.py` | | renamings and a script that imports missing names |
| `operators/ising.py`, `operator.py` | `IsingModel.v` | |
| `operators/heisenberg.py` | `HeisenbergModel.v`, `HeisenbergStateModel.v` (`use_state`) | |
| `operators/j1j2.py` | `J1J2Model.v`, `J1J2OperatorModel.v` | NetKet (`CustomGraph`, `GraphOperator.get_conn`) modelled from its meaning: cut-off 1e-6 as exact zero, coinciding edges not merged; `total_sz` only affects random states |
| `examples/j1j2_2d_exact_4.py` (total spin operator) | `TotalSpinModel.v` | NetKet as in the previous row; self edges act on the values of both end points |
| `operators/netket_operator.py` | `NetketModel.v`, `NetketOldModel.v`, `NetketSamplerModel.v` | NetKet |
| `observables/monte_carlo/*`, `optimization/loss.py`, `variational_monte_carlo.py`, `horovod_variational_monte_carlo.py` | `ObservableModel.v`, `TrainingModel.v`, `MonteCarloModel.v`, `BatchesModel.v` | horovod transport |
| constructors and sizes of the samplers, `copy_with_new_batch_size` | `BatchesModel.v`, `TrainingModel.v` | attributes other than sizes and class |
| training loop of `examples/basic_autoregressive_exact_gradient.py`, `examples/j1j2_2d_exact_4.py` | `ExactTrainingModel.v` with `ExactModel.v`, `TrainingModel.v` | callbacks during the run (see `ExactCallbackModel.v`), Adam (any wrapped optimizer is allowed) |
| `examples/custom_keras_model.py` (monitors), `callbacks/monte_carlo/mcmc_stats.py` as a callback | `MonitorModel.v` | `ModelCheckpoint`, `EarlyStopping` and the call order are tf.keras' (external); nan; what TensorBoard writes (C74) |
| SGD of Keras as used by `examples/benchmark.py` with the accumulating optimizer | `DescentModel.v` with `PipelineModel.v`, `TrainingModel.v` | Keras' SGD is external: w - lr g; momentum and decay |
| `optimization/mini_batch_generator.py`, `optimizers/accumulate_gradient_optimizer.py` | `TrainingModel.v` | the wrapped optimizer is an arbitrary function |
| `optimizers/complex_values_optimizer.py`, `optimizers/utils.py`, `optimizers/stochastic_reconfiguration/*` | `ReconfigurationModel.v`, `SolverModel.v`, `AutodiffModel.v` | gradients of tensors are gradients of their entries; while loops and gathers |
| `utils/jacobian.py` | `JacobianModel.v` | automatic differentiation of the layers above |
| `callbacks/checkpoint.py` | `CheckpointModel.v` | |
| `callbacks/tensorboard.py`, `callbacks/monte_carlo/tensorboard_with_generator_validation_data.py` | `TensorboardModel.v`, write rate in `CheckpointModel.v` | event file format, projector configuration, renaming of equal tags |
| `callbacks/monte_carlo/*`, `evaluation/evaluate.py` | `CallbackModel.v`, `McmcStatsModel.v` | |
| `callbacks/exact/*` | `ExactCallbackModel.v` | |
| `experiments/train.py`, `experiments/run_evaluation.py` | `StagesModel.v`, `PipelineModel.v`, `StageTrainingModel.v`, `SymmetricEvaluationModel.v`, `RunnerModel.v`, resume code in `CheckpointModel.v`, `CommandLineModel.v` | text of the configuration file |
| `experiments/ising_runner.py`, `experiments/heisenberg_runner.py` | `RunnerModel.v`, `CommandLineModel.v` | |
| `examples/ising.py`, `examples/j1j2_2d_monte_carlo_4.py`, `examples/evaluate_with_2d_obc_invariant.py` | `ExamplesModel.v`, `CommandLineModel.v` | TensorBoard, file names |
| `examples/benchmark.py` (arguments) | `CommandLineModel.v` | |
| `examples/benchmark.py` (network of `run_pyket`) | `BenchmarkModel.v` | sampling, training and timing; `run_netket` |
| other `examples/*`, `tests/*` | | scripts |

Shared by all: `Base.v` (lists, results), `Cplx.v` (complex numbers as pairs of reals, finite sums).

Simplifications that matter for reading the theorems:

* Graph mode TensorFlow is read as evaluation; variables are arguments; shapes that are unknown when the
  graph is built (`None`) are modelled where the code looks at them (C10, C58).
* Automatic differentiation: C71 computes the derivatives through the layers in forward mode (dual
  numbers), with TensorFlow's rules for the single operations; C79 models reverse mode for graphs of
  scalar operations and proves that it returns the adjoint of the forward derivative. That the tensor
  operations of C71 (relu and maximum with their one-sided rules) follow the same scheme is trusted. C34 uses true derivatives; C48 and C49 start from the matrix of logarithmic derivatives or
  the upstream gradient.
* `tf.contrib`'s linear algebra helper `util.dot` conjugates its first argument, as in its source.
* Checkpoints (C50): a file is missing, complete or truncated; a crash can happen between and during
  writes; there is no reordering by the file system.
* Callbacks (C53, C54): the attributes of a Monte Carlo generator are arbitrary functions of the number of
  batches fetched so far.
* Exact training (C61): `fit_generator(workers=0)`, so the coefficients are read when a batch is served.
* Weight normalisation (C59): `initial_value` of the kernel is what the initializer returned.
* Encodings (C58): no broadcasting between tensors of different shape.

Properties that cannot be expressed would be listed in `MANIFEST.json` as `not_applicable` with the
reason; there is none at the moment.
