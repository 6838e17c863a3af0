{
 "C01": "`decimal_to_binary` and `binary_to_decimal` as loops over bits. Induction on the number of bits; round trips in both directions give the bijection; the positional value is given separately.",
 "C02": "Array versions with explicit signed 32 bit wrap and output buffer. Row-wise equality with the scalar version because the wrap is the identity below 2^31; witnesses at 32 bits and for a dirty buffer.",
 "C03": "The tabulation loop with slice assignment and the lookup through the array codec. Invariant: a prefix of the table is filled; composition with C01. The conversion of NetKet vectors (`ExactVectorModel.v`) is such a table for the function that looks up NetKet's number.",
 "C04": "Log-sum-exp over R with the shift by the maximum. Algebra; that the maximum is attained gives the bounds that exclude overflow.",
 "C05": "n-dimensional product of ranges and Horner flattening. Induction on the shape.",
 "C06": "The while loop with its move state. A rank function of a cell in zigzag order; invariant: the k-th element has rank k; the rank is injective on the grid.",
 "C07": "Flat ordering, inverse built by assignments, gather. Permutation lemmas.",
 "C08": "Convolution layers as functions on n-dimensional index lists and the topology as a function from location to dependencies. The value computed from the dependencies is the value of the layer, for every kernel, stride, dilation and padding mode.",
 "C09": "Zero and periodic padding layers and topologies. Index arithmetic for every dimension; witness for periodic padding larger than the dimension.",
 "C10": "Shift, concatenate, broadcast, gather and reshape layers and topologies. Direct computation per family, row-major flattening for reshape; witnesses for each broken branch.",
 "C11": "The dependency graph construction, networkx's generator as a suspended computation, Kahn's algorithm. The suspended call returns for every graph; the algorithm fails iff there is a cycle (invariant: the processed nodes are closed under predecessors).",
 "C12": "Evaluation of the graph along a topological order and the site-by-site sampler, with the same choices. Both compute the unique solution of the layer equations (induction along the order).",
 "C13": "The sampler as a program over uniform numbers. The set of random numbers leading to a configuration is a box; its volume is the product of conditionals, by induction over the ordering.",
 "C14": "The batching loop and `Ensemble`. Division lemmas.",
 "C15": "The 1D machines assembled layer by layer for arbitrary weights and activations. Non-interference by induction over layers with a receptive field invariant; then C18.",
 "C16": "The 2D machine with its vertical and horizontal stacks. Receptive field invariants for both stacks, induction over residual blocks.",
 "C17": "Gather, 1D machine, inverse gather. C15 transported along the permutation of C07.",
 "C18": "Normalised conditionals and their combination over C. The sum over configurations factorises by induction over the ordering.",
 "C19": "Cumulative counts and the additive mask in exact arithmetic and in binary32 (SpecFloat). Counting invariant along raster order; evaluation of the casts for the refutations.",
 "C20": "`find_conn` with padding, buffers and dtype rules. Comparison with matrix elements defined from the bonds.",
 "C21": "`find_conn` as nested loops writing a shared buffer. Bond by bond comparison with the exchange form of the Hamiltonian.",
 "C22": "Buffers and the shape attribute as state; aliasing as references to the buffer. Invariant over call histories.",
 "C23": "`random_states` with explicit draws. Permutations keep the sum. `use_state` is in `HeisenbergStateModel.v`; that connections keep it is read off C21.",
 "C24": "Nested loops producing coloured edges. Permutation of the specification list; injectivity of bonds for uniqueness.",
 "C25": "The wrapper with growing padding width around an arbitrary `get_conn`. Invariant over call histories. The whole old path is in `NetketOldModel.v`; its loop keeps the invariant that the columns written so far are the padded reports, and every restart leaves fewer samples that do not fit.",
 "C26": "Both evaluation paths (rectangular and flattened with indices). List partition lemmas and algebra of complex exponentials.",
 "C27": "Local energies of an eigenstate and the variance formula. Algebra of finite sums.",
 "C28": "Loss coefficients with and without horovod. Algebra of finite sums.",
 "C29": "The mini batch generator as a state machine. Invariant over all steps.",
 "C30": "The accumulating optimizer as a state machine wrapping an arbitrary optimizer. Invariant: the accumulated sum is that of the current window.",
 "C31": "Both training loops. Simulation: f mini batch steps equal one full batch step.",
 "C32": "The exponential average of weights. Induction over steps: weights are non negative and sum to one.",
 "C33": "`ExactObservable` and `ExactVariational`: batch loops, padding of missing connections, log-sum-exp norm. The loops fill the tables of the definition; algebra of finite sums for the quotient.",
 "C34": "The coefficients served by the exact generator. Derivative of the Rayleigh quotient with the standard library's `derivable_pt_lim`; the sum over a cycle is the whole loss.",
 "C35": "The generator's batch loop. Invariant: cycle position and served prefix.",
 "C36": "`numpy.random.choice` by its checks and the search in cumulative sums. Each configuration owns an interval whose length is its probability.",
 "C37": "Proposals as maps of the random draws, the acceptance test, whole sweeps. Each kernel is given by counting draws and lengths of acceptance intervals; involutions and case analysis on the ratio; uniqueness of the stationary measure by connectivity.",
 "C38": "Hamiltonian moves with the ratio of connection counts. Symmetry of the connections and case analysis.",
 "C39": "Global proposals with an arbitrary proposal distribution. The stationary measure is computed; witness.",
 "C40": "Batches, warm up, counters and cached amplitudes as a state machine. Invariant: cached values are those of the current configurations.",
 "C41": "The transformations as permutations of grid coordinates, the ensemble models. The orbit list of a transformed configuration is a permutation of the orbit list.",
 "C42": "Translations as rolls. Same orbit argument.",
 "C43": "Both ways of combining amplitudes. Exchange of the sums over transformations and configurations.",
 "C44": "The translation invariant dense layer with stacked rolled kernels and the RBM. Reindexing of the sum over translations.",
 "C45": "Complex numbers as pairs of reals. Bilinearity, trigonometric identities, quadrants of atan2.",
 "C46": "Cutting and stacking of weight tensors, the update rule. Induction on the list of tensors.",
 "C47": "The conjugate gradient loop of the solver. Loop invariant: the stored residual is b - A x; the loop stops for the reported reason.",
 "C48": "The matrix and right hand side of stochastic reconfiguration from the logarithmic derivatives, the explicit and the matrix free product, the update. Algebra of finite sums; positive definiteness gives uniqueness; finite termination of conjugate gradient by orthogonality.",
 "C49": "Per-example gradients of dense and convolution layers as nested sums. Exchange of finite sums against the linear functional defined by the upstream gradient.",
 "C50": "Two files, a crash after any number of writes. Case analysis over crash points.",
 "C51": "The time driven save with an arbitrary clock. Invariants over the sequence of Keras calls.",
 "C52": "The counter of seen samples. Invariant over the sequence of batches.",
 "C53": "Callbacks writing to dictionaries, the evaluation loop. Induction over the steps.",
 "C54": "The default callback list over whole training runs; generator attributes are functions of the number of fetched batches. Invariants over epochs.",
 "C55": "The registry as an association list with the class hierarchy. Case analysis.",
 "C56": "Constructors with attribute tables and keyword dictionaries. Symbolic execution for every argument.",
 "C57": "The loop over stages with restarts after any epoch. Induction over stages: executed epochs carry the settings of their stage.",
 "C58": "Whole tensors with a batch axis; unstack, split and stack as index maps. Index arithmetic for every axis.",
 "C59": "Direction and length variables, l2_normalize with its epsilon. Algebra of norms.",
 "C60": "`normalize_in_log_space` over R and C. Algebra of exponentials.",
 "C61": "The exact callbacks, their caches, the training loop and `exact_evaluate`, with an arbitrary clock. Invariant: the cached arrays belong to the machine of the last cycle start.",
 "C62": "The statistics with numpy's infinities and nan. Reindexing of arrays to the formulas of the book; loop invariant for the truncated sum; total variance identity.",
 "C63": "One step after the sampler returned a batch, and Horovod's workers. Induction on the batch size gives the averages of sums and of products of sums; the rest is algebra and the derivative of the energy of C34.",
 "C64": "The transition matrices are those of C37/C38 (interval lengths of acceptance numbers averaged over the proposals). `after` iterates the matrix; C64_trajectory ties it to `run_sweeps`. A generic lemma: reversible, irreducible on a closed set and one configuration that can be kept imply that some power of the matrix dominates a multiple of the target, which contracts differences. Irreducibility of exchange moves: exchanges of neighbours generate exchanges of any two sites (conjugation along a path), and those connect configurations of equal sum.",
 "C65": "`symmetrised` states what the ensembles provide (C30, C31 give it for each constructor; composition of lists of images for the combined ones). Means over configurations are exchanged with the mean over images, which only permutes configurations; local energies of an invariant wave function are invariant when the matrix is (C65_hamiltonian_symmetries: images of sites permute the bond list). Refutations use matrices without field, whose energy is the mean bond energy, on two or three sites.",
 "C66": "Layer lists are built by the same sequence of calls as the constructors. An invariant (`good`) is kept by each call: the new layer reads earlier layers, its topology agrees with it (C08-C10), and a time assigned to each of its locations is not earlier than the times of its dependencies. Times are bounded by a linear function of the location (n in 1D; i*w+j for the horizontal and i*w+w-1 for the vertical stack), padding lowers and convolution raises the bound, and the final shift makes it strict, so the time is a rank that excludes cycles. At the same time each layer computes the tensor of MachinesModel.v. C12, C13, C15 and C16 then give sampling.",
 "C67": "The bond matrix is computed entry by entry; one bond contributes one swapped configuration. Sums over the edge list are rewritten as sums over products of chains, so that chain symmetries (reflection, shift) and the exchange of rows and columns give the symmetries of the grid. The wrapper lemma is general: any get_conn that reports the sample first and stays within the declared number represents its matrix.",
 "C68": "A row of the fast sampler equals the site by site sampler on the same random numbers (C66), so the boxes of C63 apply to the concatenated runs. The loss is linear in the target, so its gradient for targets 1 and -i gives the derivative of log psi, and the covariance computation of C63 gives the average. C31 reduces mini batch training to whole batches.",
 "C69": "One step of the run is split by its position in the window. An invariant over the mini batches of a batch (first f - r complete the window, the other r wait) gives one update of the shifted description; induction on updates and then on stages. With r = 0 the description is whole batch training.",
 "C70": "A reduction with keepdims, broadcast back, is a function of the fiber through the entry; for the last axis the fiber is the list of features of the location, which is the same in the tensor restricted to that location. The counterexample is a tensor that is zero on one slice and ln n elsewhere.",
 "C71": "A tangent relation between a curve of values and a dual number is preserved by every layer, because the layers only use zero, plus, times and the activation of the number type. log psi follows with the chain rule for exp, log and sums. The log of lncosh needs the argument function away from its cut, which holds locally. The counterexample is a machine of one site evaluated with generic rules for its numbers.",
 "C72": "The scripts are reduced to C57 (stages), C53 (callbacks and evaluate), C63 (batches, with and without horovod) and C65 (the symmetrised energy is unbiased); the mean of the means of batches of equal size is the mean over all samples, and the relative error is affine in the energy.",
 "C73": "Blindness: the agreement relations of C15 and C16 with a region instead of a prefix, transported through every layer. Influence: an order relation between the runs on two configurations (real numbers, never smaller, strictly larger in total on the region) is preserved by convolutions with kernels of ones, shifts, skips, concatenations and order preserving activations; the last layer feeds only the first filter, so the probability strictly grows. The dilated layers cover the window without gaps because each rate is at most one more than the sum of the earlier ones.",
 "C74": "The while loops are unrolled by induction on the fuel to an explicit list of batches; concatenating firstn b (skipn (k b)) over the needed k gives the list back. The image goes through squeeze, transpose and reshape, whose row-major positions are compared. set_model is split into the pieces of each weight and each layer.",
 "C75": "The stage loop is run symbolically for an arbitrary checkpoint epoch. Early stopping: induction over the epochs with the number of batches fetched. The evaluation with a foreign generator logs the same batch each step, so the means are constants. The grid: blocks of equal length in the product, quotient and remainder.",
 "C76": "The weight is computed symbolically up to the draw. Moments by linearity: the squared modulus is sigma^2 (x^2+y^2). The output of a layer: expand the square of the sum into a double sum and drop the terms off the diagonal.",
 "C77": "JSON maps every writable value to its normal form (tuples to lists), by nested induction on values; each class is then computed symbolically. The machines are concatenations of ordinary pieces followed by the layers of the abstract class, of which one has no configuration.",
 "C78": "Each axis is a ceiling division; the padded pixel is the pixel at the shifted integer position or zero; the four real convolutions are the real and imaginary parts of the complex sum. Reshapes are sums over products of ranges.",
 "C79": "One invariant of the backward walk: the pending contributions, weighted with the motions of their nodes, keep their sum. Node values are perturbed along curves, so that real and complex derivatives are limits. The forward mode uses the invariant twice: the first backward pass is linear in the placeholders, so the second one does not read them. Dependence is followed through the added nodes in the same way.",
 "C80": "The classification of a list of settings is computed word by word (flags start with a dash, arguments are plain), then the loop of parse_known_args takes one setting per step. For arbitrary command lines an invariant of the loop says that only options store and that they store values of their type.",
 "C81": "One layer is computed with the theorem on default convolutions (C78_defaults); the layers compose by induction over the depth. Turning the ring permutes the sites and commutes with every layer; flipping negates the argument of the first lncosh, which is even. The witness for long kernels is a ring of three sites with a kernel of five.",
 "C82": "Cholesky and substitution by induction on the dimension with the Schur complement: the quadratic form splits into a square and the form of the complement. Elimination keeps the set of solutions; without a pivot the first unit vector is in the kernel. Fewer equations than unknowns have a non-zero solution, by the same elimination; the rows of the centred jacobian sum to zero, so one can be left out. The bound on the rank is the bound on orthogonal vectors applied to the images of the eigenvectors and the vector of ones.",
 "C83": "The derivative of exp(lncosh) is taken instead of that of lncosh, which jumps; what enters the hidden units is linear in the weights, so that the pairing of the gradients with a velocity is the sum of tanh times the same formula for the velocities. For the symmetric machine the sums over translations are exchanged and rolled back. The step combines C82_direction, C48_gradient_is_covariance and C48_update. The slope is that of the expectation value (ExactGradientProofs.v) rewritten as a covariance; solvability by elimination since the quadratic form is at least shift times the norm.",
 "C84": "The used rows are computed from the columns of the padded arrays; symmetry of the proposals follows bond by bond because exchanging two opposite spins is an involution. Convergence reuses the connectedness of the nearest neighbour bonds (C64). A sweep reads only the used connections, which do not depend on the remembered number, hence the equality of runs.",
 "C85": "The ratio of non finite differences is computed case by case: its imaginary part is nan and its exponential never exceeds a number in [0,1). Runs of sweeps follow by induction; the machine of total spin zero follows because a local flip changes the total spin and an exchange does not.",
 "C86": "The second moment of the sum of recorded deviations is computed by recursion over the sweeps: the cross terms are the conditional means, bounded by the geometric convergence of C64. Chains are independent, so their second moments add up and their biases multiply. Chebyshev's inequality gives the probabilities. The batch is identified with the recorded trajectories by the bookkeeping lemmas of C40. For fixed total spin the limit of the energy is computed for the wave function restricted to that sector, which is again an expectation of H because H does not connect sectors.",
 "C87": "BatchesModel.v holds the objects (sampler with class and sizes, generator with its state), the constructors, copies, set_sampler and the mini batches with failures as values. The proof follows the state through one cycle (first mini batch fetches, the others slice), and the gradient comes from the covariance lemma of C63 with the nominal batch size kept apart from the number of rows.",
 "C88": "exact_fit threads the generator of ExactModel.v and the accumulating optimizer of TrainingModel.v. Inside a window the weights are constant, so the run of the generator is that of a constant machine (one_cycle) and the accumulators add up the mean gradients; over a cycle these are the gradient of the energy by loss_slope (the loss with the coefficients p conj(E_loc - E) has the slope of the Rayleigh quotient). Descent follows from the sign of the slope along the negative gradient, convergence from the descent inequality, a lower bound of the Rayleigh quotient and telescoping. For the machines, the rules of LayerRelationProofs.v (a relation that respects zero, sums and products is respected by every layer) are used twice: with the relation 'is the derivative of' (C71) and with the relation 'has the combination of the slopes' (LineGradientProofs.v), which makes slopes linear in the direction.",
 "C89": "An exchange of opposite spins on a bond changes the product of the spins of one sublattice by -1, since every bond joins the two sublattices unless it closes an odd ring. Conversely a diagonal transformation would change sign along every bond when a single up spin moves; around an odd ring this makes it zero. Removing phases: off-diagonal elements are not positive and cos <= 1.",
 "C90": "On an edge (i,i) both spins agree, so only the diagonal element 1 is left and no exchange happens; the sum over the sites is n. The total spin sums the exchange over all pairs; the exchange of i and j permutes the pairs, so conjugating the sum with it changes nothing.",
 "C91": "The update is (B-1)/B^2 times the gradient on average (C68), so the linear term of the smoothness bound gives the descent; the quadratic term is bounded by the convexity of the square and the exact mean of the sample variance. Averaging the step over the last batch of a path and telescoping gives the rate. The fluctuation is at most <H^2>, which is bounded over all wave functions.",
 "C92": "The epoch logs with logging per batch are computed symbolically. With logging per epoch an invariant over the epochs: the best value of ModelCheckpoint is the first minimum so far, and the best value of EarlyStopping is the error of the epoch before, since with patience at most 1 every earlier epoch improved.",
 "C93": "<phi|(H - E) psi> = (lambda - E) <phi|psi> for a Hermitian H, and the Cauchy-Schwarz inequality over the configurations; the norm of (H - E) psi is the fluctuation. One spin is computed explicitly.",
"C94":"floormod by 2 pi has its range and keeps the complex exponential (lemmas of C78's patches); two angles in [0, 2 pi) with the same direction are equal because cos(a - b) = 1."
}
