{
 "C01": {
  "note": "Round trips in both directions, bijection, digits against Z.testbit."
 },
 "C02": {
  "note": "Exact for at most 31 columns and fresh buffers; refuted for 32 columns (int32 wrap) and for pre-filled buffers."
 },
 "C03": {
  "note": "Table contents, lookup after table (up to 32 spins; from 33 on the lookup ignores later sites, _refuted), and failure for non dividing batch sizes."
 },
 "C05": {
  "note": "Any number of dimensions."
 },
 "C06": {
  "note": "All N >= 2; N = 1 refuted (walk leaves the grid); non squares rejected."
 },
 "C07": {
  "note": "All shapes and all orderings given as lists; iterator argument refuted (TypeError)."
 },
 "C04": {
  "note": "Exact arithmetic; includes the bounds on the shifted argument and the normalisation use."
 },
 "C13": {
  "note": "The random numbers leading to a configuration form a box of volume |psi|^2, 1D and 2D inputs, every ordering; 0/1 encoding refuted."
 },
 "C18": {
  "note": "Every ordering, every autoregressive conditional network; also probabilistic models with K categories."
 },
 "C60": {
  "note": "Real and complex branch, every non zero norm type."
 },
 "C20": {
  "note": "1D and 2D, both boundaries; integer field and one-site periodic chain refuted. Exact arithmetic (the code accumulates in float32)."
 },
 "C21": {
  "note": "Row of the Heisenberg matrix after any call history; 1D and 2D, both boundaries, both rotations."
 },
 "C22": {
  "note": "History independence, aliasing of results per batch size (snapshot claim refuted by witness), shape mutation of chains."
 },
 "C23": {
  "note": "Shuffles are arbitrary permutations."
 },
 "C24": {
  "note": "Permutation of the independently specified bonds; uniqueness for open grids and periodic grids with sides >= 3 (2 x 3 refuted)."
 },
 "C25": {
  "note": "NetKet is an arbitrary function reporting the sample first; old interface always raises."
 },
 "C14": {
  "note": "Exact number of samples for all sizes; full batch refuted when the mini batch size does not divide; ensembles."
 },
 "C29": {
  "note": "Every mini batch of every batch, all sizes; partition when the mini batch size divides."
 },
 "C30": {
  "note": "Any inner optimizer, both modes, any frequency change and allreduce; exact arithmetic."
 },
 "C31": {
  "note": "Any inner optimizer and batches that may depend on the weights; exact arithmetic."
 },
 "C32": {
  "note": "Closed form of the corrected average, positive weights summing to one."
 },
 "C08": {
  "note": "Any rank, stride, dilation, weights, over any numbers; the kernel is given by its row-major data."
 },
 "C09": {
  "note": "Zero padding and periodic padding of any rank; periodic padding with larger non-multiple prefixes refuted."
 },
 "C10": {
  "note": "Shift, concatenate, broadcast, gather, reshape; negative axes, feature axes by positive number, one-hot layers, inner -1 and Reshape inside the graph refuted."
 },
 "C55": {
  "note": "Every registration history and wrapper depth."
 },
 "C15": {
  "note": "Whole network as a function of the input, arbitrary weights and activation, with the shapes it produces; normalisation follows with C18."
 },
 "C16": {
  "note": "Whole network, odd kernel sizes; even kernel sizes raise for every grid."
 },
 "C17": {
  "note": "Whole network, every shape and every ordering of it."
 },
 "C11": {
  "note": "Kahn sort detects exactly the cyclic graphs, for every graph; assert_valid_probabilistic_model never runs it, so the claim about it is refuted."
 },
 "C12": {
  "note": "Every model whose topologies agree with its layers, every topological order, every draw function; equality with the site by site sampler."
 },
 "C26": {
  "note": "Every operator whose arrays are rectangular with the sample as used connection 0 and vanishing unused elements; instantiated for the Ising and Heisenberg operators; without the last hypothesis refuted; exact arithmetic."
 },
 "C27": {
  "note": "Eigenstate gives constant local values and zero variance; the converse is refuted because imaginary parts are ignored."
 },
 "C28": {
  "note": "Centred coefficients proved; the average over workers is the number of workers times the union loss, so the literal equality is refuted, as is unequal batch sizes."
 },
 "C33": {
  "note": "Model of ExactObservable and ExactVariational in ExactModel.v: batch loops with slice assignment, padding of missing connections, int32 indices (at most 31 spins), log-sum-exp norm. The energy is the conjugate of the Rayleigh quotient (equal to it for Hermitian operators, refuted otherwise); independent of earlier evaluations; bounded by every bound of the quadratic form and by the largest absolute row sum; unchanged by a constant. Instantiated for the Ising and Heisenberg operators. Floats are reals."
 },
 "C34": {
  "note": "Derivative computed with derivable_pt_lim for arbitrary differentiable families; second theorem links it to the losses of the batches of one generator cycle (factor batch size because Keras averages)."
 },
 "C35": {
  "note": "Any number of cycles, machine changing at every step. The model reads the yielded coefficients at the time of the yield."
 },
 "C36": {
  "note": "Each configuration owns an interval of uniform numbers whose length is its probability. numpy.random.choice is modelled by its checks and the search in the cumulative sums. The vector sampler needs a normalised vector (refuted otherwise)."
 },
 "C37": {
  "note": "Transition matrices of the local, exchange and uniform samplers built from the code of one sweep: reversible and stationary for |psi|^2; uniqueness of the stationary measure (local, uniform); exchange conserves the total spin, hence is reducible; chains independent.",
  "status": "proved"
 },
 "C38": {
  "note": "Reversible for every operator with symmetric connectivity; the Ising operator and the Heisenberg operator in any state have it; chains independent.",
  "status": "proved"
 },
 "C39": {
  "note": "Refuted: stationary measure is |psi|^2 times the proposal probability; |psi|^2 is stationary iff the proposal is uniform.",
  "status": "proved"
 },
 "C40": {
  "note": "Cached values, layout, number of sweeps, acceptance ratio, constructor exceptions; no warm-up by default.",
  "status": "proved"
 },
 "C41": {
  "note": "make_2d_obc_invariants as rot90/flip/transpose on arrays; any batch, any model acting per example, both combinations. Rectangular grids too (a turned configuration lives on the turned grid). The value is the combination of the eight images. Exact arithmetic."
 },
 "C42": {
  "note": "Any dimension and size, both combinations; tf.roll modelled axis by axis. The option for rotations and mirrors on any rectangular grid; it is rejected outside two dimensions. Exact arithmetic."
 },
 "C43": {
  "note": "Norm preserved for an arbitrary family of bijections and for the three library symmetrisations; flip invariance for both combinations; the plain average of amplitudes does not preserve the norm (witness). Norm for the option needs a square grid, because otherwise turned configurations leave the lattice."
 },
 "C44": {
  "note": "RBMSym with arbitrary complex weights, any lattice dimension; also its closed formula (sum over filters and translations of lncosh) and the closed formula of the plain RBM. lncosh is the code function on complex numbers."
 },
 "C45": {
  "note": "Convolution is an arbitrary real-bilinear map. exp(complex_log z)=z for z<>0; complex_log(exp z)=z on the strip -pi < Im <= pi, refuted outside with a witness."
 },
 "C19": {
  "note": "Exact arithmetic: sector characterised for even and odd numbers of sites, entries, normalisation and bound on the weight outside the sector. Code as written: with zigzag order the mask is not autoregressive (refuted), and in binary32 the mask is NaN wherever it should be zero, so log psi is NaN everywhere (refuted, SpecFloat)."
 },
 "C46": {
  "note": "Flattening and cutting are inverse for all shapes; the gradient step is proved for the complex weights as the complex layers read them (real variable, minus imaginary variable). Constraints of variables and get_config (which raises, super without call) are not modelled.",
  "status": "proved"
 },
 "C47": {
  "note": "Invariant over all runs for any linear operator and any preconditioner; n-step convergence in exact arithmetic without preconditioner or with any self-adjoint positive definite one."
 },
 "C48": {
  "note": "Derivatives enter as the matrix O of logarithmic derivatives; C79 proves that automatic differentiation computes the products with O. Refuted parts: a shift of zero, a model with a single weight in the iterative solver, and the right hand side computed with compute_jvp_instead_of_full_jacobian."
 },
 "C49": {
  "note": "Derivatives are coefficients of the linear functional the layer defines; the gradient with respect to the layer output is given (automatic differentiation is not modelled). Refuted: dilation larger than one, and complex layers whose input is not real (the input is not conjugated).",
  "status": "proved"
 },
 "C50": {
  "note": "Two files with the states missing, partial, complete; all crash points of all histories classified; the claim that the two files belong together is refuted, the uncrashed case proved."
 },
 "C51": {
  "note": "Over every sequence of Keras calls with a clock that does not go back. The documented path with an epoch field is refuted (KeyError)."
 },
 "C52": {
  "note": "Over every sequence of batch sizes; the documented rate is refuted because of the epoch end writes."
 },
 "C53": {
  "note": "For every list of callbacks and number of steps; default callbacks with and without mini batches. The calls in train.py (relative error without true energy) and with validation period above 1 are refuted (KeyError)."
 },
 "C54": {
  "note": "Whole training runs with the default callback list. One fresh batch per validation epoch holds for validation generators with full batches; with mini batches it is refuted. Early stopping characterised for a non zero bound."
 },
 "C57": {
  "note": "Every stage list and every starting epoch, composed with the epochs stored by the checkpoints; a single value for the stages is refuted (TypeError before the first epoch)."
 },
 "C56": {
  "note": "Refuted: the wrapper raises for every model and all keyword arguments. Proved for the machines that build their own network; the machine with a custom ordering forgets equal_up_down_spins and use_pfor."
 },
 "C58": {
  "note": "Whole tensors with a batch axis, every axis and every size; negative axes other than -1 are refuted (error, or wrong pairs for size four)."
 },
 "C59": {
  "note": "Exact real arithmetic. Columns of length at least 10^-6 (the epsilon of l2_normalize); shorter non zero columns are refuted. The exponential parametrisation starts 10^-10 too long."
 },
 "C61": {
  "note": "Evaluation, training per batch and per epoch, the machine-updated callback and observables of exact variational training, for every batch size, history and machine sequence. The clock is an arbitrary (for the order statements monotone) function. Refuted: ExactObservableCallback with its default log_in_batch_or_epoch=True raises AttributeError."
 },
 "C62": {
  "note": "Real arithmetic, with the infinities and nan of numpy for divisions by zero. Scale reduction, variance and their split, affine invariance, degenerate cases and the exact set of lags summed. Refuted: a single chain (the default) raises ZeroDivisionError; the effective sample size sums one lag more than the book and can be negative; for an odd number of lags the last pair is not looked at."
 },
 "C63": {
  "note": "Averages are finite sums over all batches with their probabilities; that the samplers' uniform random numbers give these probabilities is stated as boxes of random numbers with that volume."
 },
 "C64": {
  "note": "Paths and their probabilities from run_sweeps, Doeblin bound for uniform proposals, geometric convergence for local, exchange and Hamiltonian proposals (rate exists, not explicit), refutations for constant modulus (local) and for exchange moves on all configurations."
 },
 "C65": {
  "note": "Proved for the model of SymmetryModel.v and MonteCarloModel.v put together as in experiments/run_evaluation.py; four _refuted theorems delimit the claim."
 },
 "C66": {
  "note": "Proved for the layer lists of FastMachineModel.v, which follow the constructors call by call; values are vectors of exact integers, reals or complex numbers."
 },
 "C67": {
  "note": "NetKet itself is not part of the repository: GraphOperator.get_conn and CustomGraph are modelled from their documented meaning (J1J2OperatorModel.v); the cut-off of 1e-6 is replaced by exact zero. Periodic grids with a side of 1 or 2, on which bonds coincide, are excluded (C24 shows the duplicates)."
 },
 "C68": {
  "note": "Back propagation is trusted: the per sample gradients are assumed to be the derivatives of the loss. One training stage; changes of stage are C69."
 },
 "C69": {
  "note": "C69_stage, C69_run, C69_aligned, C69_small_batches, C69_defaults and C69_restart are positive; C69_ising_256_refuted and C69_out_of_step_refuted show that the claim without the alignment condition is false of the code. The optimizer of every stage is the same state with another step function (learning rate). That optimizer.weights does not contain the accumulators is read from Keras and trusted."
 },
 "C70": {
  "note": "C70_softmax_spatial_refuted: one_to_one_topology.py registers Softmax whatever its axis is. The Softmax layer is Keras code, modelled from its source: a tensor with two axes is normalised along the last one."
 },
 "C71": {
  "note": "Derivatives are computed in forward mode with dual numbers through the same layer functions as the machines of the machine properties; that reverse mode gives the same numbers, and that TensorFlow registers these rules for relu, tanh, log and maximum, is trusted. C71_initial_bias_refuted shows that the claim without the smoothness condition is false of the code; C71_first_row is the reason. all_smooth is computed by the model, so the condition can be checked for concrete weights."
 },
 "C72": {
  "note": "The model starts with the parsed configuration; the batches of the sampler are arbitrary (C72_accuracy: independent draws from the machine). C72_field_refuted, C72_evaluation_refuted, C72_results_lost_refuted and C72_metric_average_refuted are the failures."
 },
 "C73": {
  "note": "Influence is shown for kernels of ones with a bias that keeps all numbers non negative; weight normalisation can represent these kernels (C59), so it does not change the result. C73_default_dilation_refuted: the default use_dilation=True has no effect. C73_basic_examples_blind_refuted and C73_grid_examples_blind_refuted are the blind spots of examples."
 },
 "C74": {
  "note": "The summaries are modelled as what is recorded (source, tag, image shape), not the protocol buffers; TensorFlow's renaming of equal tags and the flush are left out. C74_zero_batch_size: batch_size = 0 never ends. C74_accumulated_gradients: write_grads cannot be used with the accumulating optimizer."
 },
 "C75": {
  "note": "C75_max_mini_batch_refuted, C75_ising_refuted, C75_run_name_refuted, C75_j1j2_evaluation_refuted: the claims are false. Modelled: the script bodies from the parsed options on, with fit_generator and the callbacks of CallbackModel.v and the evaluation of RunnerModel.v; TensorBoard and TerminateOnNaN are left out of the lists of callbacks, the names of files and runs are kept only as far as stated."
 },
 "C76": {
  "note": "C76_criterion_refuted and C76_complex128_refuted: the claims are false. The random numbers are arguments; probability is an abstract linear expectation with a class of integrable variables. That tensorflow does not convert a float32 initial value to a float64 variable, that both variables are initialised in one run of the session, and what Keras does with names, None and callables is taken from tensorflow 1.x."
 },
 "C77": {
  "note": "C77_padding_refuted, C77_lambda_refuted, C77_no_config_refuted and C77_machines_refuted: the claims are false. What Keras does (Layer.get_config and from_config, Lambda, Wrapper, JSON) is taken from tensorflow 1.x; the refusal of layers with arguments and no get_config is a parameter. Connections, weights and optimizer state in the file are not modelled; every class is registered as a custom object."
 },
 "C78": {
  "note": "C78_normalize_tuple_refuted, C78_causal_refuted, C78_dilations_ignored_refuted and C78_channels_first_refuted: the claims are false. The real convolutions of tensorflow are modelled from their documentation (pad, then slide), on real numbers; sizes are positive. Floats and strings that pass normalize_tuple are not followed into tensorflow; infinite floats are left out."
 },
 "C79": {
  "note": "tf.gradients is modelled: it walks the graph backwards, adds the gradient nodes of each operation with TensorFlow's conventions for complex numbers, and sums several contributions. Tensors are taken apart into scalar nodes; operations are additions, products, conj, real, imag, complex, constants and elementwise functions with known derivatives. While loops and gather are not operations of the model. That the predictions have a complex jacobian is a hypothesis, shown for an example; that the layers of the library give one is C34 and C49."
 },
 "C80": {
  "note": "The part of argparse that the scripts use is modelled from its documentation and source: classification of the words, abbreviations, joined short options, '=', '--', negative numbers, nargs, choices, required options, subcommands, positional choices. Which strings float() reads is a parameter; messages, the text of config.json and environment are not modelled. The refuted theorems are the options after the subcommand, the defaults of benchmark.py and the missing gamma."
 },
 "C81": {
  "note": "The layers are those of C09 (padding), C78 (convolutions) and C45 (lncosh), composed as in benchmark.py:24-36. Only the network of run_pyket is modelled; sampling, optimizer and timing are covered by other claims or left out, the netket branch is left out. kernel_size is positive."
 },
 "C82": {
  "note": "Floating point numbers are exact; in floating point a singular matrix may pass elimination. tf.linalg.cholesky, cholesky_solve and solve are modelled by their algorithms, tf.linalg.eigvalsh by the numbers it returns with the hypothesis that they have orthonormal eigenvectors. The combination of the iterative solver, products from derivatives and a gradient not from the loss is excluded in C82_direction; C48_jvp_gradient_refuted shows that it is wrong. A single weight is excluded for the iterative solver (C48_single_weight_refuted). Whether Optimizer has _set_hyper is a parameter."
 },
 "C83": {
  "note": "Floating point numbers are exact. The gradients of the tensorflow operations are written down from the documentation of tensorflow (incoming gradient times the conjugate derivative) and are part of the model; weights at which a cosh vanishes are excluded, the code divides by zero there. use_energy_loss and compute_jvp_instead_of_full_jacobian are left out of C83_step (C82 and C48 speak of them). The energy statements are about the exact distribution; the batch enters through the covariances of C83_step."
 },
 "C84": {
  "note": "NetKet is a parameter (a function from configurations to their connections), for J1-J2 it is modelled from its meaning. Amplitudes are finite. The witness of C84_default_wrapper_refuted is an operator that accepts a configuration of zeros; what NetKet itself does with one is not modelled."
 },
 "C85": {
  "note": "numpy's complex arithmetic (multiplication, minimum, greater, exp) is modelled for infinities and nan; finite results are exact real numbers, so overflow inside exp and rounding are not modelled. The frozen chain comes from infinity times the imaginary part 0 of 2.0, which is nan, and from greater being false if an imaginary part is nan."
 },
 "C86": {
  "note": "Weak law of large numbers with explicit rates for all Metropolis samplers, and for independent rows; wrong limit with exchange moves shown."
 },
 "C87": {
  "note": "C87_cycle describes every mini batch of a generator (the state after a cycle meets the hypotheses again). C87_full_parts_refuted: sampler mini 6, generator mini 2, batch 10 gives two empty mini batches; generator mini 5 gives mini batches of 5 and 1. C87_validation_refuted: batch 5000, mini 1000 validates with 32000 samples instead of 32768."
 },
 "C88": {
  "note": "Exact arithmetic. Back propagation is the hypothesis loss_gradient (derivatives of the loss of one sample with respect to each weight), for C88_descent line_gradient (along every line); C88_line_gradients proves it for the three convolutional machines, C88_machines_descend is the descent for them without this hypothesis. Smoothness is a hypothesis of C88_convergence; the example is one spin in a transverse field, energy -cos(2t), L = 8. The callbacks of the examples are left out here (C61)."
 },
 "C89": {
  "note": "The matrices are those that C21 and C20 prove the code to implement; C89_reported goes through the modelled ExactVariational. Exact arithmetic. C89_exactly_bipartite shows the condition is sharp for diagonal transformations; that the spectra differ is shown for the ring of three spins only."
 },
 "C90": {
  "note": "NetKet is external: CustomGraph is assumed to accept edges that join a site with itself, and GraphOperator is modelled from its meaning, acting on the values of both end points of such an edge as for other edges. Exact arithmetic. The value of the total spin is given for the uniform wave function and the singlet of two spins."
 },
 "C91": {
  "note": "Exact arithmetic. SGD of Keras (external) is modelled as w - lr g. Smoothness of the energy and a bound D of the per sample gradients are hypotheses, met by the example machine; that the energies are bounded below and the fluctuations bounded is proved. The averages are finite sums over all sequences of batches; C91_run ties their weights to the random numbers of the code."
 },
 "C92": {
  "note": "ModelCheckpoint, EarlyStopping and the order in which fit_generator calls the callbacks are those of tf.keras (external, modelled from its documented behaviour). TensorBoard and TerminateOnNaN write nothing to the logs; training that meets nan is left out."
 },
 "C93": {
  "note": "The positive statements are about exact statistics, as exact training logs them (C61); for sampled batches the refutation holds for every batch, and C93_workers_variance is about one horovod step. The averaging of the logs is done by horovod, which is not modelled: the theorem is about the mean of the workers' variances. Uses the models of the callbacks (C54), of exact training (C61) and of sampled steps (C63)."
 },
 "C94": {
  "note": "The binning and writing of summaries is TensorFlow's and not modelled; floormod is exact."
 }
}