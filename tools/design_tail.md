## 4. Which code is modelled

Paths are relative to `src/flowket` unless they start with `examples` or `experiments`.

| python source | model | not modelled |
|---|---|---|
| `exact/utils.py` | `ExactUtilsModel.v`, `ExactVectorModel.v`, log-sum-exp in `AutoregressiveModel.v` | NetKet's numbering (any function) |
| `deepar/ordering/*` | `OrderingModel.v` | |
| `deepar/layers/padding.py`, `masking.py`, `gathering.py`, `casting.py` | `TensorModel.v`, configurations in `ConfigModel.v` | connections and weights in a saved model |
| `deepar/layers/autoregressive.py`, `one_hot.py` | `AutoregressiveModel.v` (one example), `EncodingModel.v` (whole tensors) | |
| `deepar/layers/wrappers.py` | `WeightNormModel.v` | Keras build protocol, gradients |
| `deepar/layers/layer_normalization.py` | `AxisModel.v` | |
| `deepar/graph_analysis/*` | `TopologyModel.v`, `GraphModel.v` | TensorFlow graph nodes (values instead) |
| `deepar/samplers/*` | `AutoregressiveModel.v`, `GraphModel.v`, `TrainingModel.v` | progress bar |
| `samplers/metropolis_hastings.py` | `MetropolisModel.v`, `MetropolisFloatModel.v`, `McmcStatsModel.v` | rounding |
| `samplers/exact_sampler.py`, `optimization/exact_variational.py` | `ExactModel.v` | |
| `machines/*autoregressive*`, `conv_net_autoregressive_2D.py` | `MachinesModel.v` (functions), `FastMachineModel.v` (layer graphs), `WrapperModel.v` (constructors), `GradientModel.v` (gradients) | reverse mode through tensor operations (C79 treats scalar graphs); gradients of the custom ordering machine |
| `machines/abstract_machine.py` | `WrapperModel.v`, `AutoregressiveModel.v`, `EqualSpinsModel.v`, `RbmModel.v` | |
| `machines/rbm.py`, `machines/ensemble.py`, `layers/dihedral_4_invariants.py`, `layers/transition_invariants.py`, `layers/complex/dense.py` | `SymmetryModel.v`, `RbmModel.v` (weights, gradients) | |
| `layers/spins_invariants.py` | `EqualSpinsModel.v`, `SymmetryModel.v` | |
| `layers/complex/tensorflow_ops.py`, `base_layer.py`, `initializers.py`, `conv.py` | `ComplexModel.v`, `InitializersModel.v`, `ComplexConvModel.v` | what tensorflow makes of fractional or string sizes |
| `layers/complex/casting.py` | `EncodingModel.v` | |
| `layers/complex/histograms.py` | `HistogramsModel.v` | bins and writing of the summaries |
| `utils/v1_to_v2.py`, `main.py` | | renamings and a script that imports missing names |
| `operators/ising.py`, `operator.py` | `IsingModel.v` | |
| `operators/heisenberg.py` | `HeisenbergModel.v`, `HeisenbergStateModel.v` (`use_state`) | |
| `operators/j1j2.py` | `J1J2Model.v`, `J1J2OperatorModel.v` | NetKet (`CustomGraph`, `GraphOperator.get_conn`) modelled from its meaning: cut-off 1e-6 as exact zero, coinciding edges not merged; `total_sz` only affects random states |
| `examples/j1j2_2d_exact_4.py` (total spin operator) | `TotalSpinModel.v` | NetKet as in the previous row; self edges act on the values of both end points |
| `operators/netket_operator.py` | `NetketModel.v`, `NetketOldModel.v`, `NetketSamplerModel.v` | NetKet |
| `observables/monte_carlo/*`, `optimization/loss.py`, `variational_monte_carlo.py`, `horovod_variational_monte_carlo.py` | `ObservableModel.v`, `TrainingModel.v`, `MonteCarloModel.v`, `BatchesModel.v` | horovod transport |
| constructors and sizes of the samplers, `copy_with_new_batch_size` | `BatchesModel.v`, `TrainingModel.v` | attributes other than sizes and class |
| training loop of `examples/basic_autoregressive_exact_gradient.py`, `examples/j1j2_2d_exact_4.py` | `ExactTrainingModel.v` with `ExactModel.v`, `TrainingModel.v` | callbacks during the run (see `ExactCallbackModel.v`), Adam (any wrapped optimizer is allowed) |
| `examples/custom_keras_model.py` (monitors), `callbacks/monte_carlo/mcmc_stats.py` as a callback | `MonitorModel.v` | `ModelCheckpoint`, `EarlyStopping` and the call order are tf.keras' (external); nan; what TensorBoard writes (C74) |
| SGD of Keras as used by `examples/benchmark.py` with the accumulating optimizer | `DescentModel.v` with `PipelineModel.v`, `TrainingModel.v` | Keras' SGD is external: w - lr g; momentum and decay |
| `optimization/mini_batch_generator.py`, `optimizers/accumulate_gradient_optimizer.py` | `TrainingModel.v` | the wrapped optimizer is an arbitrary function |
| `optimizers/complex_values_optimizer.py`, `optimizers/utils.py`, `optimizers/stochastic_reconfiguration/*` | `ReconfigurationModel.v`, `SolverModel.v`, `AutodiffModel.v` | gradients of tensors are gradients of their entries; while loops and gathers |
| `utils/jacobian.py` | `JacobianModel.v` | automatic differentiation of the layers above |
| `callbacks/checkpoint.py` | `CheckpointModel.v` | |
| `callbacks/tensorboard.py`, `callbacks/monte_carlo/tensorboard_with_generator_validation_data.py` | `TensorboardModel.v`, write rate in `CheckpointModel.v` | event file format, projector configuration, renaming of equal tags |
| `callbacks/monte_carlo/*`, `evaluation/evaluate.py` | `CallbackModel.v`, `McmcStatsModel.v` | |
| `callbacks/exact/*` | `ExactCallbackModel.v` | |
| `experiments/train.py`, `experiments/run_evaluation.py` | `StagesModel.v`, `PipelineModel.v`, `StageTrainingModel.v`, `SymmetricEvaluationModel.v`, `RunnerModel.v`, resume code in `CheckpointModel.v`, `CommandLineModel.v` | text of the configuration file |
| `experiments/ising_runner.py`, `experiments/heisenberg_runner.py` | `RunnerModel.v`, `CommandLineModel.v` | |
| `examples/ising.py`, `examples/j1j2_2d_monte_carlo_4.py`, `examples/evaluate_with_2d_obc_invariant.py` | `ExamplesModel.v`, `CommandLineModel.v` | TensorBoard, file names |
| `examples/benchmark.py` (arguments) | `CommandLineModel.v` | |
| `examples/benchmark.py` (network of `run_pyket`) | `BenchmarkModel.v` | sampling, training and timing; `run_netket` |
| other `examples/*`, `tests/*` | | scripts |

Shared by all: `Base.v` (lists, results), `Cplx.v` (complex numbers as pairs of reals, finite sums).

Simplifications that matter for reading the theorems:

* Graph mode TensorFlow is read as evaluation; variables are arguments; shapes that are unknown when the
  graph is built (`None`) are modelled where the code looks at them (C10, C58).
* Automatic differentiation: C71 computes the derivatives through the layers in forward mode (dual
  numbers), with TensorFlow's rules for the single operations; C79 models reverse mode for graphs of
  scalar operations and proves that it returns the adjoint of the forward derivative. That the tensor
  operations of C71 (relu and maximum with their one-sided rules) follow the same scheme is trusted. C34 uses true derivatives; C48 and C49 start from the matrix of logarithmic derivatives or
  the upstream gradient.
* `tf.contrib`'s linear algebra helper `util.dot` conjugates its first argument, as in its source.
* Checkpoints (C50): a file is missing, complete or truncated; a crash can happen between and during
  writes; there is no reordering by the file system.
* Callbacks (C53, C54): the attributes of a Monte Carlo generator are arbitrary functions of the number of
  batches fetched so far.
* Exact training (C61): `fit_generator(workers=0)`, so the coefficients are read when a batch is served.
* Weight normalisation (C59): `initial_value` of the kernel is what the initializer returned.
* Encodings (C58): no broadcasting between tensors of different shape.

Properties that cannot be expressed would be listed in `MANIFEST.json` as `not_applicable` with the
reason; there is none at the moment.
