# Formal model of FlowKet in Rocq

Source: `/repo` (HUJI-Deep/FlowKet, python). Model: `rocq/theories`, Coq 8.16.1, logical root `Verif`.
This file is written by `tools/design.py` from `properties.jsonl`, `MANIFEST.json`, `tools/ideas.json`,
`tools/design_head.md` and `tools/design_tail.md`.

## 1. Method

* Every python function in scope becomes a total Gallina function. Exceptions are values
  (`res A := Ok a | Err e`). Loops become structural recursion; a loop whose bound is data becomes
  recursion on that bound. State (caches, counters, files, global registries, clocks) is passed explicitly.
* `<Area>Model.v` holds definitions only, each with file and lines of the python source and the
  simplifications made. `<Area>Spec.v` holds the independent specification, written without the model's
  helpers. `<Area>Proofs.v` holds lemmas. `<Area>Props.v` holds the property theorems, each followed by
  `Print Assumptions` and by an `Example` that meets its hypotheses with a concrete non trivial case.
* Names: `Cnn_...` proves property Cnn; suffix `_partial` means only part of the statement is covered
  (a comment says what is missing); suffix `_refuted` means a claim a user would make is false of the
  code as written, shown by a witness or by proving the failure for all inputs.
* All proofs are by induction, invariants, refinement or algebra, for all sizes. Computation on literals
  occurs only in witnesses of `_refuted` theorems and in the examples.
* The theorems are tested against wrong programs: an edit is made to a model in a scratch copy, the
  development is rebuilt and the failing theorems are recorded in `seeded/LOG.jsonl`. Theorems that
  survived an edit that falsifies their English claim were tightened.

## 2. Trusted base

* The Coq 8.16.1 kernel, including `vm_compute` for closed computations.
* Axioms of the standard library only. `Print Assumptions` stands beneath each theorem:
  * theorems over `nat`, `Z` and lists: none ("Closed under the global context");
  * theorems over real and complex numbers: `ClassicalDedekindReals.sig_forall_dec`,
    `ClassicalDedekindReals.sig_not_dec`, `FunctionalExtensionality.functional_extensionality_dep`
    (the axioms of the standard library's real numbers), and `Classical_Prop.classic` where lemmas of
    `Rtrigo`, `Ratan`, `Ranalysis` or `Rpower` that use it are involved;
  * a checker that walks over the compiled libraries also reports the sealed constants of the standard
    library's modules `Rdefinitions.RbaseSymbolsImpl`, `Rdefinitions.RinvImpl` and
    `ssr.ssrunder.Under_rel`: these are opaque implementations of module signatures in the standard
    library, not axioms, and `Print Assumptions` does not list them.

  No axiom of our own, no axiom of any other library, no module functor of our own.
* The reading of the python code recorded in the comments of the `*Model.v` files.
* The behaviour of third party code, taken from its documentation:
  * numpy: slices clamp, `full` takes the dtype of its fill value, in-place integer addition wraps, views
    alias, `random.choice` checks its probabilities and searches the cumulative sums, division by zero of
    numpy numbers gives infinities or nan (of python numbers: an exception);
  * networkx >= 2.3: `topological_sort` is a generator (nothing runs until it is consumed);
  * TensorFlow 1.x and Keras: layers are the mathematical functions their documentation gives;
    `fit_generator(workers=0)` fetches a batch, trains on it, then calls `on_batch_end` of the callbacks in
    list order, and likewise at epoch ends; a loss is averaged over the mini batch; `load_weights` and
    `save_weights` read and write one file; attributes of a model that are not set raise AttributeError;
  * horovod: an all-reduce returns the mean over the workers;
  * NetKet: an arbitrary operator answering `get_conn`.
* Floating point numbers are exact real or complex numbers unless the property is about finite precision:
  32 bit integer wrap-around (C02, C36), integer truncation (C20) and the binary32 mask (C19) are modelled
  exactly; C62 has numpy's infinities and nan.
* Random numbers are arguments (uniform numbers, proposals); probabilities are lengths or volumes of sets
  of uniform numbers, or finite sums.
