{
 "claims": [
  {
   "property": "C01",
   "status": "proved",
   "theorems": [
    "C01_decode_encode",
    "C01_encode_decode",
    "C01_bijection",
    "C01_digits",
    "C01_positional"
   ],
   "note": "Round trips in both directions, bijection, digits against Z.testbit."
  },
  {
   "property": "C02",
   "status": "proved",
   "theorems": [
    "C02_encode_array",
    "C02_decode_array",
    "C02_decode_array_general",
    "C02_decode_overflow_refuted",
    "C02_dirty_buffer_refuted"
   ],
   "note": "Exact for at most 31 columns and fresh buffers; refuted for 32 columns (int32 wrap) and for pre-filled buffers."
  },
  {
   "property": "C03",
   "status": "proved",
   "theorems": [
    "C03_table",
    "C03_lookup_after_table",
    "C03_lookup_short_table",
    "C03_lookup_33_refuted",
    "C03_nondividing_batch_fails",
    "C03_zero_batch_fails",
    "C03_netket_vector",
    "C03_netket_vector_restricted_refuted"
   ],
   "note": "Table contents, lookup after table (up to 32 spins; from 33 on the lookup ignores later sites, _refuted), and failure for non dividing batch sizes."
  },
  {
   "property": "C04",
   "status": "proved",
   "theorems": [
    "C04_complex_norm",
    "C04_real_version",
    "C04_shift_bounds",
    "C04_normalises",
    "C04_empty_raises"
   ],
   "note": "Exact arithmetic; includes the bounds on the shifted argument and the normalisation use."
  },
  {
   "property": "C05",
   "status": "proved",
   "theorems": [
    "C05_raster_flat",
    "C05_raster_is_ordering",
    "C05_flat_index"
   ],
   "note": "Any number of dimensions."
  },
  {
   "property": "C06",
   "status": "proved",
   "theorems": [
    "C06_zigzag_visits_every_cell",
    "C06_zigzag_rejects_non_squares",
    "C06_zigzag_single_cell_refuted"
   ],
   "note": "All N >= 2; N = 1 refuted (walk leaves the grid); non squares rejected."
  },
  {
   "property": "C07",
   "status": "proved",
   "theorems": [
    "C07_gather_then_inverse",
    "C07_inverse_then_gather",
    "C07_gather_meaning",
    "C07_inverse_of_raster_iterator_refuted"
   ],
   "note": "All shapes and all orderings given as lists; iterator argument refuted (TypeError)."
  },
  {
   "property": "C08",
   "status": "proved",
   "theorems": [
    "C08_convolution_agrees"
   ],
   "note": "Any rank, stride, dilation, weights, over any numbers; the kernel is given by its row-major data."
  },
  {
   "property": "C09",
   "status": "proved",
   "theorems": [
    "C09_zero_padding_agrees",
    "C09_periodic_padding_agrees",
    "C09_periodic_padding_large_refuted"
   ],
   "note": "Zero padding and periodic padding of any rank; periodic padding with larger non-multiple prefixes refuted."
  },
  {
   "property": "C10",
   "status": "proved",
   "theorems": [
    "C10_shift_agrees",
    "C10_concatenate_beyond",
    "C10_concatenate_spatial_agrees",
    "C10_concatenate_features_agrees",
    "C10_concatenate_positive_features_refuted",
    "C10_concatenate_negative_refuted",
    "C10_concatenate_negative_3d_refuted",
    "C10_broadcast_agrees",
    "C10_merge_lower_rank_raises",
    "C10_expand_input_dim",
    "C10_one_hot_refuted",
    "C10_gather_agrees",
    "C10_gather_negative_refuted",
    "C10_gather_features_refuted",
    "C10_reshape_agrees",
    "C10_reshape_leading_unknown_agrees",
    "C10_reshape_keeps_row_major",
    "C10_reshape_inner_unknown_refuted",
    "C10_reshape_in_graph_refuted"
   ],
   "note": "Shift, concatenate, broadcast, gather, reshape; negative axes, feature axes by positive number, one-hot layers, inner -1 and Reshape inside the graph refuted."
  },
  {
   "property": "C11",
   "status": "proved",
   "theorems": [
    "C11_never_raises_refuted",
    "C11_cyclic_model_accepted_refuted",
    "C11_sort_detects_cycles",
    "C11_fast_sampler_rejects_cycles"
   ],
   "note": "Kahn sort detects exactly the cyclic graphs, for every graph; assert_valid_probabilistic_model never runs it, so the claim about it is refuted."
  },
  {
   "property": "C12",
   "status": "proved",
   "theorems": [
    "C12_any_topological_order",
    "C12_fast_sampler",
    "C12_graph_order_autoregressive",
    "C12_fast_equals_site_by_site"
   ],
   "note": "Every model whose topologies agree with its layers, every topological order, every draw function; equality with the site by site sampler."
  },
  {
   "property": "C13",
   "status": "proved",
   "theorems": [
    "C13_samples_born_probability",
    "C13_always_returns",
    "C13_zero_base_draws_category_0",
    "C13_zero_base_refuted",
    "C13_three_dimensions_raise",
    "C13_outside_raises"
   ],
   "note": "The random numbers leading to a configuration form a box of volume |psi|^2, 1D and 2D inputs, every ordering; 0/1 encoding refuted."
  },
  {
   "property": "C14",
   "status": "proved",
   "theorems": [
    "C14_fast_sampler_count",
    "C14_full_batch_refuted",
    "C14_ensemble_count",
    "C14_ensemble_concatenates",
    "C14_ensemble_unequal_raises"
   ],
   "note": "Exact number of samples for all sizes; full batch refuted when the mini batch size does not divide; ensembles."
  },
  {
   "property": "C15",
   "status": "proved",
   "theorems": [
    "C15_real_machine_causal",
    "C15_complex_machine_causal",
    "C15_real_machine_normalised",
    "C15_complex_machine_normalised"
   ],
   "note": "Whole network as a function of the input, arbitrary weights and activation, with the shapes it produces; normalisation follows with C18."
  },
  {
   "property": "C16",
   "status": "proved",
   "theorems": [
    "C16_machine_causal",
    "C16_machine_normalised",
    "C16_even_kernel_raises"
   ],
   "note": "Whole network, odd kernel sizes; even kernel sizes raise for every grid."
  },
  {
   "property": "C17",
   "status": "proved",
   "theorems": [
    "C17_machine_causal",
    "C17_machine_normalised"
   ],
   "note": "Whole network, every shape and every ordering of it."
  },
  {
   "property": "C18",
   "status": "proved",
   "theorems": [
    "C18_normalised",
    "C18_normalised_probability"
   ],
   "note": "Every ordering, every autoregressive conditional network; also probabilistic models with K categories."
  },
  {
   "property": "C19",
   "status": "proved",
   "theorems": [
    "C19_zero_magnetisation",
    "C19_odd",
    "C19_entries",
    "C19_machine_normalised",
    "C19_weight_in_sector",
    "C19_zigzag_refuted",
    "C19_float32_mask_refuted",
    "C19_float32_nan_refuted"
   ],
   "note": "Exact arithmetic: sector characterised for even and odd numbers of sites, entries, normalisation and bound on the weight outside the sector. Code as written: with zigzag order the mask is not autoregressive (refuted), and in binary32 the mask is NaN wherever it should be zero, so log psi is NaN everywhere (refuted, SpecFloat)."
  },
  {
   "property": "C20",
   "status": "proved",
   "theorems": [
    "C20_matrix_row",
    "C20_symmetric",
    "C20_integer_field_truncates",
    "C20_integer_field_refuted",
    "C20_single_site_ring_refuted",
    "C20_more_than_two_dimensions_raise"
   ],
   "note": "1D and 2D, both boundaries; integer field and one-site periodic chain refuted. Exact arithmetic (the code accumulates in float32)."
  },
  {
   "property": "C21",
   "status": "proved",
   "theorems": [
    "C21_matrix_row",
    "C21_symmetric"
   ],
   "note": "Row of the Heisenberg matrix after any call history; 1D and 2D, both boundaries, both rotations."
  },
  {
   "property": "C22",
   "status": "proved",
   "theorems": [
    "C22_history_independent",
    "C22_results_alias",
    "C22_snapshot_refuted",
    "C22_shape_mutation"
   ],
   "note": "History independence, aliasing of results per batch size (snapshot claim refuted by witness), shape mutation of chains."
  },
  {
   "property": "C23",
   "status": "proved",
   "theorems": [
    "C23_zero_magnetisation",
    "C23_other_requests_raise",
    "C23_use_state_conserved",
    "C23_use_state"
   ],
   "note": "Shuffles are arbitrary permutations."
  },
  {
   "property": "C24",
   "status": "proved",
   "theorems": [
    "C24_edges",
    "C24_each_bond_once",
    "C24_each_bond_once_refuted",
    "C24_periodic_count",
    "C24_declared_connections"
   ],
   "note": "Permutation of the independently specified bonds; uniqueness for open grids and periodic grids with sides >= 3 (2 x 3 refuted)."
  },
  {
   "property": "C25",
   "status": "proved",
   "theorems": [
    "C25_old_interface_raises_refuted",
    "C25_old_interface_repaired",
    "C25_old_interface_exchange_refuted",
    "C25_old_interface_batch_refuted",
    "C25_old_interface_bad_reports",
    "C25_old_interface_too_many",
    "C25_padded_rows",
    "C25_constructor",
    "C25_equivalent",
    "C25_sample_not_first_raises",
    "C25_first_bad_sample",
    "C25_empty_batch",
    "C25_old_interface_refuted"
   ],
   "note": "NetKet is an arbitrary function reporting the sample first; old interface always raises."
  },
  {
   "property": "C26",
   "status": "proved",
   "theorems": [
    "C26_both_paths",
    "C26_matrix",
    "C26_ising",
    "C26_heisenberg",
    "C26_unused_element_refuted",
    "C26_no_used_connection_raises"
   ],
   "note": "Every operator whose arrays are rectangular with the sample as used connection 0 and vanishing unused elements; instantiated for the Ising and Heisenberg operators; without the last hypothesis refuted; exact arithmetic."
  },
  {
   "property": "C27",
   "status": "proved",
   "theorems": [
    "C27_eigenstate",
    "C27_variance_nonneg",
    "C27_converse_refuted"
   ],
   "note": "Eigenstate gives constant local values and zero variance; the converse is refuted because imaginary parts are ignored."
  },
  {
   "property": "C28",
   "status": "proved",
   "theorems": [
    "C28_centred",
    "C28_workers",
    "C28_equal_to_union_refuted",
    "C28_unequal_batches_refuted"
   ],
   "note": "Centred coefficients proved; the average over workers is the number of workers times the union loss, so the literal equality is refuted, as is unequal batch sizes."
  },
  {
   "property": "C29",
   "status": "proved",
   "theorems": [
    "C29_mini_batches",
    "C29_partition"
   ],
   "note": "Every mini batch of every batch, all sizes; partition when the mini batch size divides."
  },
  {
   "property": "C30",
   "status": "proved",
   "theorems": [
    "C30_windows",
    "C30_any_frequency",
    "C30_short_window"
   ],
   "note": "Any inner optimizer, both modes, any frequency change and allreduce; exact arithmetic."
  },
  {
   "property": "C31",
   "status": "proved",
   "theorems": [
    "C31_mini_batch_training"
   ],
   "note": "Any inner optimizer and batches that may depend on the weights; exact arithmetic."
  },
  {
   "property": "C32",
   "status": "proved",
   "theorems": [
    "C32_convex_combination"
   ],
   "note": "Closed form of the corrected average, positive weights summing to one."
  },
  {
   "property": "C33",
   "status": "proved",
   "theorems": [
    "C33_rayleigh_quotient",
    "C33_declared_too_small",
    "C33_hermitian_real",
    "C33_bounds",
    "C33_constant_shift",
    "C33_ising",
    "C33_heisenberg",
    "C33_non_hermitian_refuted"
   ],
   "note": "Model of ExactObservable and ExactVariational in ExactModel.v: batch loops with slice assignment, padding of missing connections, int32 indices (at most 31 spins), log-sum-exp norm. The energy is the conjugate of the Rayleigh quotient (equal to it for Hermitian operators, refuted otherwise); independent of earlier evaluations; bounded by every bound of the quadratic form and by the largest absolute row sum; unchanged by a constant. Instantiated for the Ising and Heisenberg operators. Floats are reals."
  },
  {
   "property": "C34",
   "status": "proved",
   "theorems": [
    "C34_gradient",
    "C34_cycle_loss"
   ],
   "note": "Derivative computed with derivable_pt_lim for arbitrary differentiable families; second theorem links it to the losses of the batches of one generator cycle (factor batch size because Keras averages)."
  },
  {
   "property": "C35",
   "status": "proved",
   "theorems": [
    "C35_cycles",
    "C35_batch_sizes"
   ],
   "note": "Any number of cycles, machine changing at every step. The model reads the yielded coefficients at the time of the yield."
  },
  {
   "property": "C36",
   "status": "proved",
   "theorems": [
    "C36_exact_sampler",
    "C36_vector_sampler",
    "C36_vector_sampler_refuted",
    "C36_vector_sampler_raises"
   ],
   "note": "Each configuration owns an interval of uniform numbers whose length is its probability. numpy.random.choice is modelled by its checks and the search in the cumulative sums. The vector sampler needs a normalised vector (refuted otherwise)."
  },
  {
   "property": "C37",
   "status": "proved",
   "theorems": [
    "C37_acceptance",
    "C37_local",
    "C37_exchange",
    "C37_uniform",
    "C37_kernel_unique",
    "C37_local_only_stationary",
    "C37_uniform_only_stationary",
    "C37_exchange_conserves",
    "C37_exchange_reducible",
    "C37_chains_independent"
   ],
   "note": "Transition matrices of the local, exchange and uniform samplers built from the code of one sweep: reversible and stationary for |psi|^2; uniqueness of the stationary measure (local, uniform); exchange conserves the total spin, hence is reducible; chains independent."
  },
  {
   "property": "C38",
   "status": "proved",
   "theorems": [
    "C38_hamiltonian",
    "C38_ising",
    "C38_heisenberg",
    "C38_chains_independent",
    "C38_stuck_chain"
   ],
   "note": "Reversible for every operator with symmetric connectivity; the Ising operator and the Heisenberg operator in any state have it; chains independent."
  },
  {
   "property": "C39",
   "status": "proved",
   "theorems": [
    "C39_refuted",
    "C39_stationary_measure",
    "C39_iff_uniform"
   ],
   "note": "Refuted: stationary measure is |psi|^2 times the proposal probability; |psi|^2 is stationary iff the proposal is uniform."
  },
  {
   "property": "C40",
   "status": "proved",
   "theorems": [
    "C40_symmetric",
    "C40_hamiltonian",
    "C40_returns",
    "C40_raises",
    "C40_no_warm_up_by_default"
   ],
   "note": "Cached values, layout, number of sweeps, acceptance ratio, constructor exceptions; no warm-up by default."
  },
  {
   "property": "C41",
   "status": "proved",
   "theorems": [
    "C41_obc_invariant",
    "C41_obc_rectangular",
    "C41_obc_value"
   ],
   "note": "make_2d_obc_invariants as rot90/flip/transpose on arrays; any batch, any model acting per example, both combinations. Rectangular grids too (a turned configuration lives on the turned grid). The value is the combination of the eight images. Exact arithmetic."
  },
  {
   "property": "C42",
   "status": "proved",
   "theorems": [
    "C42_pbc_invariant",
    "C42_pbc_option",
    "C42_pbc_value"
   ],
   "note": "Any dimension and size, both combinations; tf.roll modelled axis by axis. The option for rotations and mirrors on any rectangular grid; it is rejected outside two dimensions. Exact arithmetic."
  },
  {
   "property": "C43",
   "status": "proved",
   "theorems": [
    "C43_norm_preserved",
    "C43_symmetrisations_preserve_norm",
    "C43_up_down",
    "C43_errors",
    "C43_dimensions",
    "C43_average_norm_refuted"
   ],
   "note": "Norm preserved for an arbitrary family of bijections and for the three library symmetrisations; flip invariance for both combinations; the plain average of amplitudes does not preserve the norm (witness). Norm for the option needs a square grid, because otherwise turned configurations leave the lattice."
  },
  {
   "property": "C44",
   "status": "proved",
   "theorems": [
    "C44_rbm_sym_invariant",
    "C44_rbm_sym_value",
    "C44_rbm_value"
   ],
   "note": "RBMSym with arbitrary complex weights, any lattice dimension; also its closed formula (sum over filters and translations of lncosh) and the closed formula of the plain RBM. lncosh is the code function on complex numbers."
  },
  {
   "property": "C45",
   "status": "proved",
   "theorems": [
    "C45_complex_convolution",
    "C45_weight_starts_at_initializer",
    "C45_gradient_tensors",
    "C45_standard_initializer",
    "C45_lncosh",
    "C45_complex_log",
    "C45_log_of_exp_refuted",
    "C45_crelu"
   ],
   "note": "Convolution is an arbitrary real-bilinear map. exp(complex_log z)=z for z<>0; complex_log(exp z)=z on the strip -pi < Im <= pi, refuted outside with a witness."
  },
  {
   "property": "C46",
   "status": "proved",
   "theorems": [
    "C46_cut_and_stack",
    "C46_stack_and_cut",
    "C46_lengths",
    "C46_gradient_step",
    "C46_direction",
    "C46_needs_complex_layers"
   ],
   "note": "Flattening and cutting are inverse for all shapes; the gradient step is proved for the complex weights as the complex layers read them (real variable, minus imaginary variable). Constraints of variables and get_config (which raises, super without call) are not modelled."
  },
  {
   "property": "C47",
   "status": "proved",
   "theorems": [
    "C47_report",
    "C47_terminates",
    "C47_n_iterations"
   ],
   "note": "Invariant over all runs for any linear operator and any preconditioner; n-step convergence in exact arithmetic without preconditioner or with any self-adjoint positive definite one."
  },
  {
   "property": "C48",
   "status": "proved",
   "theorems": [
    "C48_matrix_is_covariance",
    "C48_gradient_is_covariance",
    "C48_products_agree",
    "C48_positive_definite",
    "C48_zero_shift_refuted",
    "C48_iterative_solver",
    "C48_single_weight_refuted",
    "C48_descent",
    "C48_update",
    "C48_jvp_gradient_refuted",
    "C48_jvp_gradient_value"
   ],
   "note": "Derivatives enter as the matrix O of logarithmic derivatives; C79 proves that automatic differentiation computes the products with O. Refuted parts: a shift of zero, a model with a single weight in the iterative solver, and the right hand side computed with compute_jvp_instead_of_full_jacobian."
  },
  {
   "property": "C49",
   "status": "proved",
   "theorems": [
    "C49_dense",
    "C49_conv2d",
    "C49_conv1d",
    "C49_dilation_refuted",
    "C49_complex_dense_real_input",
    "C49_complex_conv2d_real_input",
    "C49_complex_input_refuted",
    "C49_supported",
    "C49_unsupported",
    "C49_order",
    "C49_variables"
   ],
   "note": "Derivatives are coefficients of the linear functional the layer defines; the gradient with respect to the layer output is given (automatic differentiation is not modelled). Refuted: dilation larger than one, and complex layers whose input is not real (the input is not conjugated)."
  },
  {
   "property": "C50",
   "status": "proved",
   "theorems": [
    "C50_no_crash",
    "C50_crash_outcomes",
    "C50_crash_refuted"
   ],
   "note": "Two files with the states missing, partial, complete; all crash points of all histories classified; the claim that the two files belong together is refuted, the uncrashed case proved."
  },
  {
   "property": "C51",
   "status": "proved",
   "theorems": [
    "C51_saves_iff",
    "C51_spacing",
    "C51_train_end",
    "C51_current_epoch",
    "C51_file_name",
    "C51_file_name_errors",
    "C51_documented_path_refuted"
   ],
   "note": "Over every sequence of Keras calls with a clock that does not go back. The documented path with an epoch field is refuted (KeyError)."
  },
  {
   "property": "C52",
   "status": "proved",
   "theorems": [
    "C52_rate",
    "C52_batch_epoch",
    "C52_documented_rate_refuted"
   ],
   "note": "Over every sequence of batch sizes; the documented rate is refuted because of the epoch end writes."
  },
  {
   "property": "C53",
   "status": "proved",
   "theorems": [
    "C53_mean",
    "C53_missing_key",
    "C53_no_steps",
    "C53_errors",
    "C53_progress_bar",
    "C53_default",
    "C53_relative_error_refuted",
    "C53_validation_period_refuted"
   ],
   "note": "For every list of callbacks and number of steps; default callbacks with and without mini batches. The calls in train.py (relative error without true energy) and with validation period above 1 are refuted (KeyError)."
  },
  {
   "property": "C54",
   "status": "proved",
   "theorems": [
    "C54_validation_schedule",
    "C54_fresh_batches",
    "C54_mini_batches_refuted",
    "C54_order",
    "C54_period_zero",
    "C54_early_stopping",
    "C54_early_stopping_keys",
    "C54_stop_ends_training",
    "C54_relative_error_sign"
   ],
   "note": "Whole training runs with the default callback list. One fresh batch per validation epoch holds for validation generators with full batches; with mini batches it is refuted. Early stopping characterised for a non zero bound."
  },
  {
   "property": "C55",
   "status": "proved",
   "theorems": [
    "C55_dispatch",
    "C55_import_changes_sampling"
   ],
   "note": "Every registration history and wrapper depth."
  },
  {
   "property": "C56",
   "status": "proved",
   "theorems": [
    "C56_wrapper_refuted",
    "C56_wrapper_attribute",
    "C56_conversion_refuted",
    "C56_no_conversion",
    "C56_network_machine",
    "C56_unknown_argument",
    "C56_custom_ordering",
    "C56_custom_ordering_refuted"
   ],
   "note": "Refuted: the wrapper raises for every model and all keyword arguments. Proved for the machines that build their own network; the machine with a custom ordering forgets equal_up_down_spins and use_pfor."
  },
  {
   "property": "C57",
   "status": "proved",
   "theorems": [
    "C57_resume",
    "C57_interrupted",
    "C57_checkpoints",
    "C57_assertion",
    "C57_lengths",
    "C57_single_value_refuted",
    "C57_workers",
    "C57_evaluation_steps"
   ],
   "note": "Every stage list and every starting epoch, composed with the epochs stored by the checkpoints; a single value for the stages is refuted (TypeError before the first epoch)."
  },
  {
   "property": "C58",
   "status": "proved",
   "theorems": [
    "C58_vector_to_complex",
    "C58_odd",
    "C58_batch_axis",
    "C58_no_axis",
    "C58_unknown_size",
    "C58_empty",
    "C58_negative_axis",
    "C58_negative_axis_refuted",
    "C58_one_hot",
    "C58_categories",
    "C58_combine",
    "C58_combine_categories",
    "C58_amplitude"
   ],
   "note": "Whole tensors with a batch axis, every axis and every size; negative axes other than -1 are refuted (error, or wrong pairs for size four)."
  },
  {
   "property": "C59",
   "status": "proved",
   "theorems": [
    "C59_identity",
    "C59_identity_whole",
    "C59_exponential",
    "C59_column_norm",
    "C59_whole_norm",
    "C59_short_columns",
    "C59_tiny_refuted",
    "C59_unusable"
   ],
   "note": "Exact real arithmetic. Columns of length at least 10^-6 (the epsilon of l2_normalize); shorter non zero columns are refuted. The exponential parametrisation starts 10^-10 too long."
  },
  {
   "property": "C60",
   "status": "proved",
   "theorems": [
    "C60_real_sums_to_one",
    "C60_complex_sums_to_one",
    "C60_amplitudes_normalised",
    "C60_real_shift",
    "C60_complex_shift"
   ],
   "note": "Real and complex branch, every non zero norm type."
  },
  {
   "property": "C61",
   "status": "proved",
   "theorems": [
    "C61_evaluate",
    "C61_logged_per_batch",
    "C61_whole_cycles",
    "C61_logged_per_epoch",
    "C61_machine_updated",
    "C61_observable",
    "C61_observable_per_batch_refuted",
    "C61_magnetisation_bounds",
    "C61_before_evaluation"
   ],
   "note": "Evaluation, training per batch and per epoch, the machine-updated callback and observables of exact variational training, for every batch size, history and machine sequence. The clock is an arbitrary (for the order statements monotone) function. Refuted: ExactObservableCallback with its default log_in_batch_or_epoch=True raises AttributeError."
  },
  {
   "property": "C62",
   "status": "proved",
   "theorems": [
    "C62_values",
    "C62_one_lag_more",
    "C62_effective_sample_size_refuted",
    "C62_single_chain_refuted",
    "C62_one_sample",
    "C62_all_equal",
    "C62_affine",
    "C62_bounds",
    "C62_logged",
    "C62_errors"
   ],
   "note": "Real arithmetic, with the infinities and nan of numpy for divisions by zero. Scale reduction, variance and their split, affine invariance, degenerate cases and the exact set of lags summed. Refuted: a single chain (the default) raises ZeroDivisionError; the effective sample size sums one lag more than the book and can be negative; for an odd number of lags the last pair is not looked at."
  },
  {
   "property": "C63",
   "status": "proved",
   "theorems": [
    "C63_independent_rows",
    "C63_autoregressive_batches",
    "C63_exact_batches",
    "C63_step",
    "C63_energy_unbiased",
    "C63_energy_error",
    "C63_fluctuation",
    "C63_variance",
    "C63_gradient",
    "C63_horovod_gradient",
    "C63_single_row_refuted"
   ],
   "note": "Averages are finite sums over all batches with their probabilities; that the samplers' uniform random numbers give these probabilities is stated as boxes of random numbers with that volume."
  },
  {
   "property": "C64",
   "status": "proved",
   "theorems": [
    "C64_trajectory",
    "C64_sum_over_paths",
    "C64_never_farther",
    "C64_observables",
    "C64_uniform_converges",
    "C64_local_converges",
    "C64_local_periodic_refuted",
    "C64_exchange_converges",
    "C64_exchange_refuted",
    "C64_hamiltonian_converges",
    "C64_ising_converges",
    "C64_heisenberg_converges"
   ],
   "note": "Paths and their probabilities from run_sweeps, Doeblin bound for uniform proposals, geometric convergence for local, exchange and Hamiltonian proposals (rate exists, not explicit), refutations for constant modulus (local) and for exchange moves on all configurations."
  },
  {
   "property": "C65",
   "status": "proved",
   "theorems": [
    "C65_hamiltonian_symmetries",
    "C65_statistics",
    "C65_energy_unbiased",
    "C65_run_evaluation",
    "C65_square_images",
    "C65_translations",
    "C65_global_flip",
    "C65_average_refuted",
    "C65_open_translations_refuted",
    "C65_rectangle_refuted",
    "C65_sigma_z_refuted",
    "C65_magnetisation"
   ],
   "note": "Proved for the model of SymmetryModel.v and MonteCarloModel.v put together as in experiments/run_evaluation.py; four _refuted theorems delimit the claim."
  },
  {
   "property": "C66",
   "status": "proved",
   "theorems": [
    "C66_real_1d",
    "C66_complex_1d",
    "C66_conv_2d",
    "C66_same_as_site_by_site",
    "C66_same_exception",
    "C66_equal_spins_unsupported",
    "C66_custom_ordering_graph",
    "C66_custom_ordering_raises"
   ],
   "note": "Proved for the layer lists of FastMachineModel.v, which follow the constructors call by call; values are vectors of exact integers, reals or complex numbers."
  },
  {
   "property": "C67",
   "status": "proved",
   "theorems": [
    "C67_operator",
    "C67_rejected",
    "C67_connections",
    "C67_hermitian_conserves",
    "C67_heisenberg",
    "C67_symmetries",
    "C67_evaluation"
   ],
   "note": "NetKet itself is not part of the repository: GraphOperator.get_conn and CustomGraph are modelled from their documented meaning (J1J2OperatorModel.v); the cut-off of 1e-6 is replaced by exact zero. Periodic grids with a side of 1 or 2, on which bonds coincide, are excluded (C24 shows the duplicates)."
  },
  {
   "property": "C68",
   "status": "proved",
   "theorems": [
    "C68_machines",
    "C68_sampler",
    "C68_generator",
    "C68_training",
    "C68_update"
   ],
   "note": "Back propagation is trusted: the per sample gradients are assumed to be the derivatives of the loss. One training stage; changes of stage are C69."
  },
  {
   "property": "C69",
   "status": "proved",
   "theorems": [
    "C69_stage",
    "C69_run",
    "C69_aligned",
    "C69_small_batches",
    "C69_defaults",
    "C69_ising_256_refuted",
    "C69_out_of_step_refuted",
    "C69_restart"
   ],
   "note": "C69_stage, C69_run, C69_aligned, C69_small_batches, C69_defaults and C69_restart are positive; C69_ising_256_refuted and C69_out_of_step_refuted show that the claim without the alignment condition is false of the code. The optimizer of every stage is the same state with another step function (learning rate). That optimizer.weights does not contain the accumulators is read from Keras and trusted."
  },
  {
   "property": "C70",
   "status": "proved",
   "theorems": [
    "C70_layer_normalization",
    "C70_standardised",
    "C70_shift",
    "C70_bounded",
    "C70_layer_normalization_location",
    "C70_log_space_location",
    "C70_softmax_location",
    "C70_softmax_rank",
    "C70_elementwise_location",
    "C70_softmax_spatial_refuted"
   ],
   "note": "C70_softmax_spatial_refuted: one_to_one_topology.py registers Softmax whatever its axis is. The Softmax layer is Keras code, modelled from its source: a tensor with two axes is normalised along the last one."
  },
  {
   "property": "C71",
   "status": "proved",
   "theorems": [
    "C71_real_machine",
    "C71_complex_machine",
    "C71_machine_2d",
    "C71_lncosh",
    "C71_normalized_kernel",
    "C71_loss_gradient",
    "C71_first_row",
    "C71_initial_bias_refuted",
    "C71_update"
   ],
   "note": "Derivatives are computed in forward mode with dual numbers through the same layer functions as the machines of the machine properties; that reverse mode gives the same numbers, and that TensorFlow registers these rules for relu, tanh, log and maximum, is trusted. C71_initial_bias_refuted shows that the claim without the smoothness condition is false of the code; C71_first_row is the reason. all_smooth is computed by the model, so the condition can be checked for concrete weights."
  },
  {
   "property": "C72",
   "status": "proved",
   "theorems": [
    "C72_no_command",
    "C72_field_refuted",
    "C72_evaluation",
    "C72_evaluation_refuted",
    "C72_training",
    "C72_documented",
    "C72_documented_heisenberg",
    "C72_documented_evaluation",
    "C72_results_lost_refuted",
    "C72_accuracy",
    "C72_horovod",
    "C72_metric_average_refuted"
   ],
   "note": "The model starts with the parsed configuration; the batches of the sampler are arbitrary (C72_accuracy: independent draws from the machine). C72_field_refuted, C72_evaluation_refuted, C72_results_lost_refuted and C72_metric_average_refuted are the failures."
  },
  {
   "property": "C73",
   "status": "proved",
   "theorems": [
    "C73_real_machine_window",
    "C73_real_receptive_field",
    "C73_complex_machine_window",
    "C73_complex_receptive_field",
    "C73_grid_machine_window",
    "C73_grid_receptive_field",
    "C73_real_machine_sees_all_iff",
    "C73_grid_machine_sees_all_iff",
    "C73_default_dilation_refuted",
    "C73_dilation_doubles",
    "C73_basic_examples_blind_refuted",
    "C73_grid_examples_blind_refuted"
   ],
   "note": "Influence is shown for kernels of ones with a bias that keeps all numbers non negative; weight normalisation can represent these kernels (C59), so it does not change the result. C73_default_dilation_refuted: the default use_dilation=True has no effect. C73_basic_examples_blind_refuted and C73_grid_examples_blind_refuted are the blind spots of examples."
  },
  {
   "property": "C74",
   "status": "proved",
   "theorems": [
    "C74_validation_batches",
    "C74_learning_phase",
    "C74_zero_batch_size",
    "C74_missing_data",
    "C74_no_histograms",
    "C74_generator",
    "C74_embedding_rows",
    "C74_weight_image",
    "C74_summaries",
    "C74_accumulated_gradients",
    "C74_logs_written",
    "C74_logs_exception",
    "C74_batch_end",
    "C74_same_step",
    "C74_nothing_merged",
    "C74_tags",
    "C74_set_model_succeeds",
    "C74_numbers"
   ],
   "note": "The summaries are modelled as what is recorded (source, tag, image shape), not the protocol buffers; TensorFlow's renaming of equal tags and the flush are left out. C74_zero_batch_size: batch_size = 0 never ends. C74_accumulated_gradients: write_grads cannot be used with the accumulating optimizer."
  },
  {
   "property": "C75",
   "status": "proved",
   "theorems": [
    "C75_max_mini_batch_refuted",
    "C75_ising_refuted",
    "C75_ising_errors",
    "C75_run_name_refuted",
    "C75_ising_with_capacity",
    "C75_grid",
    "C75_grid_complete",
    "C75_grid_empty",
    "C75_j1j2",
    "C75_j1j2_evaluation_refuted",
    "C75_obc_evaluation"
   ],
   "note": "C75_max_mini_batch_refuted, C75_ising_refuted, C75_run_name_refuted, C75_j1j2_evaluation_refuted: the claims are false. Modelled: the script bodies from the parsed options on, with fit_generator and the callbacks of CallbackModel.v and the evaluation of RunnerModel.v; TensorBoard and TerminateOnNaN are left out of the lists of callbacks, the names of files and runs are kept only as far as stated."
  },
  {
   "property": "C76",
   "status": "proved",
   "theorems": [
    "C76_standard_weight",
    "C76_shared_instance",
    "C76_complex128_refuted",
    "C76_keras_weight",
    "C76_errors",
    "C76_criterion_refuted",
    "C76_output_power",
    "C76_normal_weight"
   ],
   "note": "C76_criterion_refuted and C76_complex128_refuted: the claims are false. The random numbers are arguments; probability is an abstract linear expectation with a class of integrable variables. That tensorflow does not convert a float32 initial value to a float64 variable, that both variables are initialised in one run of the session, and what Keras does with names, None and callables is taken from tensorflow 1.x."
  },
  {
   "property": "C77",
   "status": "proved",
   "theorems": [
    "C77_clone",
    "C77_saved_and_loaded",
    "C77_optimizer_refuted",
    "C77_padding_refuted",
    "C77_lambda_refuted",
    "C77_no_config_refuted",
    "C77_machines_refuted",
    "C77_machine_bodies",
    "C77_ensembles"
   ],
   "note": "C77_padding_refuted, C77_lambda_refuted, C77_no_config_refuted and C77_machines_refuted: the claims are false. What Keras does (Layer.get_config and from_config, Lambda, Wrapper, JSON) is taken from tensorflow 1.x; the refusal of layers with arguments and no get_config is a parameter. Connections, weights and optimizer state in the file are not modelled; every class is registered as a custom object."
  },
  {
   "property": "C78",
   "status": "proved",
   "theorems": [
    "C78_layer",
    "C78_defaults",
    "C78_strides_and_dilations",
    "C78_negative_kernel_size",
    "C78_normalize_tuple",
    "C78_normalize_tuple_refuted",
    "C78_normalize_padding",
    "C78_causal_refuted",
    "C78_conv2d",
    "C78_conv2d_batch_and_channels",
    "C78_dilations_ignored_refuted",
    "C78_channels_first_refuted",
    "C78_patches",
    "C78_patches_too_large",
    "C78_patches_times_kernel"
   ],
   "note": "C78_normalize_tuple_refuted, C78_causal_refuted, C78_dilations_ignored_refuted and C78_channels_first_refuted: the claims are false. The real convolutions of tensorflow are modelled from their documentation (pad, then slide), on real numbers; sizes are positive. Floats and strings that pass normalize_tuple are not followed into tensorflow; infinite floats are left out."
  },
  {
   "property": "C79",
   "status": "proved",
   "theorems": [
    "C79_values",
    "C79_gradients",
    "C79_none",
    "C79_forward_mode",
    "C79_placeholders",
    "C79_unused_weight",
    "C79_vector_jacobian_product",
    "C79_stored_weights",
    "C79_jacobian_vector_product",
    "C79_mean_gradient",
    "C79_energy_loss",
    "C79_product"
   ],
   "note": "tf.gradients is modelled: it walks the graph backwards, adds the gradient nodes of each operation with TensorFlow's conventions for complex numbers, and sums several contributions. Tensors are taken apart into scalar nodes; operations are additions, products, conj, real, imag, complex, constants and elementwise functions with known derivatives. While loops and gather are not operations of the model. That the predictions have a complex jacobian is a hypothesis, shown for an example; that the layers of the library give one is C34 and C49."
  },
  {
   "property": "C80",
   "status": "proved",
   "theorems": [
    "C80_boundary",
    "C80_defaults",
    "C80_switches",
    "C80_options",
    "C80_subcommands",
    "C80_scripts",
    "C80_documented",
    "C80_values",
    "C80_gamma",
    "C80_late_refuted",
    "C80_ambiguous",
    "C80_bad_value",
    "C80_integers",
    "C80_underscores",
    "C80_config_file",
    "C80_config_errors",
    "C80_benchmark",
    "C80_benchmark_default_refuted",
    "C80_example_gamma",
    "C80_example_gamma_refuted"
   ],
   "note": "The part of argparse that the scripts use is modelled from its documentation and source: classification of the words, abbreviations, joined short options, '=', '--', negative numbers, nargs, choices, required options, subcommands, positional choices. Which strings float() reads is a parameter; messages, the text of config.json and environment are not modelled. The refuted theorems are the options after the subcommand, the defaults of benchmark.py and the missing gamma."
  },
  {
   "property": "C81",
   "status": "proved",
   "theorems": [
    "C81_network",
    "C81_translation",
    "C81_flip",
    "C81_any_kernel",
    "C81_translation_refuted"
   ],
   "note": "The layers are those of C09 (padding), C78 (convolutions) and C45 (lncosh), composed as in benchmark.py:24-36. Only the network of run_pyket is modelled; sampling, optimizer and timing are covered by other claims or left out, the netket branch is left out. kernel_size is positive."
  },
  {
   "property": "C82",
   "status": "proved",
   "theorems": [
    "C82_jacobian",
    "C82_cholesky",
    "C82_elimination",
    "C82_direct",
    "C82_no_shift_refuted",
    "C82_direction",
    "C82_assertions",
    "C82_statistics",
    "C82_smallest_eigenvalue_refuted",
    "C82_metrics",
    "C82_version",
    "C82_version_refuted"
   ],
   "note": "Floating point numbers are exact; in floating point a singular matrix may pass elimination. tf.linalg.cholesky, cholesky_solve and solve are modelled by their algorithms, tf.linalg.eigvalsh by the numbers it returns with the hypothesis that they have orthonormal eigenvectors. The combination of the iterative solver, products from derivatives and a gradient not from the loss is excluded in C82_direction; C48_jvp_gradient_refuted shows that it is wrong. A single weight is excluded for the iterative solver (C48_single_weight_refuted). Whether Optimizer has _set_hyper is a parameter."
  },
  {
   "property": "C83",
   "status": "proved",
   "theorems": [
    "C83_shapes",
    "C83_refused",
    "C83_amplitude",
    "C83_jacobian",
    "C83_step",
    "C83_energy_slope",
    "C83_solvable",
    "C83_downhill",
    "C83_lowers",
    "C83_unique"
   ],
   "note": "Floating point numbers are exact. The gradients of the tensorflow operations are written down from the documentation of tensorflow (incoming gradient times the conjugate derivative) and are part of the model; weights at which a cosh vanishes are excluded, the code divides by zero there. use_energy_loss and compute_jvp_instead_of_full_jacobian are left out of C83_step (C82 and C48 speak of them). The energy statements are about the exact distribution; the batch enters through the covariances of C83_step."
  },
  {
   "property": "C84",
   "status": "proved",
   "theorems": [
    "C84_wrapper",
    "C84_hermitian",
    "C84_memory",
    "C84_same_count",
    "C84_padding_offered",
    "C84_default_wrapper_refuted",
    "C84_j1j2",
    "C84_j1j2_converges"
   ],
   "note": "NetKet is a parameter (a function from configurations to their connections), for J1-J2 it is modelled from its meaning. Amplitudes are finite. The witness of C84_default_wrapper_refuted is an operator that accepts a configuration of zeros; what NetKet itself does with one is not modelled."
  },
  {
   "property": "C85",
   "status": "proved",
   "theorems": [
    "C85_finite_symmetric",
    "C85_finite_hamiltonian",
    "C85_raises",
    "C85_frozen_symmetric",
    "C85_frozen_hamiltonian",
    "C85_never_enters",
    "C85_phase_not_tested",
    "C85_local_zero_spin",
    "C85_exchange_zero_spin",
    "C85_order",
    "C85_finite_arithmetic",
    "C85_special_values"
   ],
   "note": "numpy's complex arithmetic (multiplication, minimum, greater, exp) is modelled for infinities and nan; finite results are exact real numbers, so overflow inside exp and rounding are not modelled. The frozen chain comes from infinity times the imaginary part 0 of 2.0, which is nan, and from greater being false if an imaginary part is nan."
  },
  {
   "property": "C86",
   "status": "proved",
   "theorems": [
    "C86_batch",
    "C86_averages",
    "C86_bias",
    "C86_law_of_large_numbers",
    "C86_local",
    "C86_uniform",
    "C86_exchange",
    "C86_exchange_refuted",
    "C86_hamiltonian",
    "C86_ising",
    "C86_heisenberg",
    "C86_energy",
    "C86_independent",
    "C86_j1j2",
    "C86_sector_energy"
   ],
   "note": "Weak law of large numbers with explicit rates for all Metropolis samplers, and for independent rows; wrong limit with exchange moves shown."
  },
  {
   "property": "C87",
   "status": "proved",
   "theorems": [
    "C87_new_sampler",
    "C87_copies",
    "C87_rows",
    "C87_cycle",
    "C87_parts",
    "C87_full_parts_refuted",
    "C87_gradient",
    "C87_evaluation",
    "C87_set_sampler",
    "C87_stages",
    "C87_validation_refuted"
   ],
   "note": "C87_cycle describes every mini batch of a generator (the state after a cycle meets the hypotheses again). C87_full_parts_refuted: sampler mini 6, generator mini 2, batch 10 gives two empty mini batches; generator mini 5 gives mini batches of 5 and 1. C87_validation_refuted: batch 5000, mini 1000 validates with 32000 samples instead of 32768."
  },
  {
   "property": "C88",
   "status": "proved",
   "theorems": [
    "C88_updates",
    "C88_descent",
    "C88_convergence",
    "C88_line_gradients",
    "C88_machines_descend"
   ],
   "note": "Exact arithmetic. Back propagation is the hypothesis loss_gradient (derivatives of the loss of one sample with respect to each weight), for C88_descent line_gradient (along every line); C88_line_gradients proves it for the three convolutional machines, C88_machines_descend is the descent for them without this hypothesis. Smoothness is a hypothesis of C88_convergence; the example is one spin in a transverse field, energy -cos(2t), L = 8. The callbacks of the examples are left out here (C61)."
  },
  {
   "property": "C89",
   "status": "proved",
   "theorems": [
    "C89_rotation",
    "C89_energies",
    "C89_reported",
    "C89_exactly_bipartite",
    "C89_odd_ring_refuted",
    "C89_modulus",
    "C89_unrotated_refuted"
   ],
   "note": "The matrices are those that C21 and C20 prove the code to implement; C89_reported goes through the modelled ExactVariational. Exact arithmetic. C89_exactly_bipartite shows the condition is sharp for diagonal transformations; that the spectra differ is shown for the ring of three spins only."
  },
  {
   "property": "C90",
   "status": "proved",
   "theorems": [
    "C90_operator",
    "C90_logged",
    "C90_total_spin_refuted",
    "C90_conserved",
    "C90_rotated_refuted"
   ],
   "note": "NetKet is external: CustomGraph is assumed to accept edges that join a site with itself, and GraphOperator is modelled from its meaning, acting on the values of both end points of such an edge as for other edges. Exact arithmetic. The value of the total spin is given for the uniform wave function and the singlet of two spins."
  },
  {
   "property": "C91",
   "status": "proved",
   "theorems": [
    "C91_run",
    "C91_step",
    "C91_noise",
    "C91_fluctuation_bounded",
    "C91_convergence",
    "C91_single_row_refuted"
   ],
   "note": "Exact arithmetic. SGD of Keras (external) is modelled as w - lr g. Smoothness of the energy and a bound D of the per sample gradients are hypotheses, met by the example machine; that the energies are bounded below and the fluctuations bounded is proved. The averages are finite sums over all sequences of batches; C91_run ties their weights to the random numbers of the code."
  },
  {
   "property": "C92",
   "status": "proved",
   "theorems": [
    "C92_batch_logging_refuted",
    "C92_checkpoint",
    "C92_best_weights_refuted",
    "C92_early_stopping",
    "C92_mcmc_refuted",
    "C92_mcmc_logged",
    "C92_mode"
   ],
   "note": "ModelCheckpoint, EarlyStopping and the order in which fit_generator calls the callbacks are those of tf.keras (external, modelled from its documented behaviour). TensorBoard and TerminateOnNaN write nothing to the logs; training that meets nan is left out."
  },
  {
   "property": "C93",
   "status": "proved",
   "theorems": [
    "C93_workers_variance",
    "C93_fidelity",
    "C93_zero_variance",
    "C93_stops_far_away",
    "C93_complex_refuted",
    "C93_small_energies_refuted",
    "C93_training_refuted",
    "C93_workers_refuted"
   ],
   "note": "The positive statements are about exact statistics, as exact training logs them (C61); for sampled batches the refutation holds for every batch, and C93_workers_variance is about one horovod step. The averaging of the logs is done by horovod, which is not modelled: the theorem is about the mean of the workers' variances. Uses the models of the callbacks (C54), of exact training (C61) and of sampled steps (C63)."
  },
  {
   "property": "C94",
   "status": "proved",
   "theorems": [
    "C94_histograms",
    "C94_phase_refuted"
   ],
   "note": "The binning and writing of summaries is TensorFlow's and not modelled; floormod is exact."
  }
 ]
}