(** Symmetrised wave functions and translation invariant machines: machines/ensemble.py,
    layers/dihedral_4_invariants.py, layers/transition_invariants.py, layers/complex/dense.py, machines/rbm.py.
    A tensor of one example is an array: its shape and its entries in row-major order. A batch is a list of arrays; a Keras
    model maps a batch to one value per example ([mapM]: a layer is applied to every example). *)
From Coq Require Import List ZArith Arith Bool Reals.
From Verif Require Import Base OrderingModel Cplx AutoregressiveModel IsingModel ObservableModel ComplexModel.
Import ListNotations.

Definition array (A : Type) : Type := (list nat * list A)%type.

(** Entry of an array; [d] is returned outside of the array, which the functions below never ask for. *)
Definition entry_at {A} (d : A) (x : array A) (l : loc) : A := nth (flat_loop l (fst x) 0) (snd x) d.
(** An array of shape [shape] whose entry at [l] is the entry of [x] at [f l]. *)
Definition rearrange {A} (d : A) (shape : list nat) (f : loc -> loc) (x : array A) : array A :=
  (shape, map (fun l => entry_at d x (f l)) (raster shape)).

(** tensorflow.reverse of axis [k]. *)
Definition reverse_axis {A} (d : A) (k : nat) (x : array A) : array A :=
  rearrange d (fst x) (fun l => upd l k (nth k (fst x) 0 - 1 - nth k l 0)) x.
(** tensorflow.transpose of a two dimensional array. *)
Definition transpose {A} (d : A) (x : array A) : array A :=
  rearrange d (rev (fst x)) (@rev nat) x.

(** tensorflow.image.rot90: transpose(reverse width) for one rotation, reverse of both axes for two, reverse width of the transpose for
    three; the number of rotations is taken modulo four. *)
Definition image_rot90 {A} (d : A) (k : nat) (x : array A) : array A :=
  match Nat.modulo k 4 with
  | 1 => transpose d (reverse_axis d 1 x)
  | 2 => reverse_axis d 0 (reverse_axis d 1 x)
  | 3 => reverse_axis d 1 (transpose d x)
  | _ => x
  end.

(** layers/dihedral_4_invariants.py:12-14 [Rot90.call]: two spatial dimensions or AssertionError. *)
Definition Rot90 (num_of_rotations : nat) (x : array Z) : res (array Z) :=
  if Nat.eqb (length (fst x)) 2 then Ok (image_rot90 0%Z num_of_rotations x) else Err AssertionError.
(** dihedral_4_invariants.py:26-28 [FlipLeftRight.call]; tensorflow.image.flip_left_right reverses the width. *)
Definition FlipLeftRight (x : array Z) : res (array Z) :=
  if Nat.eqb (length (fst x)) 2 then Ok (reverse_axis 0%Z 1 x) else Err AssertionError.

(** tensorflow.roll over the first [length shifts] axes: the entry at [i] comes from [(i - shift) mod n]. *)
Fixpoint rolled_loc (shifts : list Z) (shape : list nat) (l : loc) : loc :=
  match shifts, shape, l with
  | s :: shifts', n :: shape', i :: l' => Z.to_nat ((Z.of_nat i - s) mod Z.of_nat n) :: rolled_loc shifts' shape' l'
  | _, _, _ => l
  end.
Definition tf_roll {A} (d : A) (shifts : list Z) (x : array A) : array A :=
  rearrange d (fst x) (rolled_loc shifts (fst x)) x.
(** layers/transition_invariants.py:6-16 [Roll] with the default axes 1 .. len(roll_for_axis); more shifts than dimensions is an error of
    tensorflow. *)
Definition Roll (roll_for_axis : list Z) (x : array Z) : res (array Z) :=
  if Nat.leb (length roll_for_axis) (length (fst x)) then Ok (tf_roll 0%Z roll_for_axis x) else Err ValueError.

(** machines/ensemble.py:14-20 [probabilistic_ensemble_op] on one row. *)
Definition probabilistic_ensemble_op (ensemble_size : nat) (x : list C) : C :=
  let new_real := (0.5 * reduce_logsumexp (map (fun z => Re z * 2)%R x) - 0.5 * ln (INR ensemble_size))%R in
  let new_imag := angle (Cmean (map (fun z => Cexp (0%R, Im z)) x)) in
  (new_real, new_imag).

(** ensemble.py:23-24 [average_ensemble_op] on one row. *)
Definition average_ensemble_op (x : list C) : C := complex_log (Cmean (map Cexp x)).

(** ensemble.py:29-30, 39-40: the combination that is used. *)
Definition ensemble_op (probabilistic : bool) (ensemble_size : nat) : list C -> C :=
  if probabilistic then probabilistic_ensemble_op ensemble_size else average_ensemble_op.

(** tensorflow.stack along a new last axis (entries one dimensional, row-major), and of batches along axis 1 followed by merging the first
    two axes: element [b] of every list in turn. *)
Definition stack_last {A} (d : A) (xs : list (list A)) : list A :=
  flat_map (fun b => map (fun x => nth b x d) xs) (range (length (hd [] xs))).
(** tensorflow.reshape to (-1, width): rows of [width] numbers. *)
Definition reshape_rows {A} (width : nat) (x : list A) : list (list A) :=
  map (fun b => slice x (b * width) ((b + 1) * width)) (range (length x / width)).

(** ensemble.py:27-31 [build_ensemble]: [predictions] has one list of values (a value per example of the batch) per member; Concatenate puts
    the values of one example next to each other. No member at all: Concatenate raises ValueError. *)
Definition build_ensemble (probabilistic : bool) (predictions : list (list C)) : res (list C) :=
  match predictions with
  | [] => Err ValueError
  | first :: _ =>
      let joint_predictions := map (fun b => map (fun p => nth b p C0) predictions) (range (length first)) in
      Ok (map (ensemble_op probabilistic (length predictions)) joint_predictions)
  end.

(** ensemble.py:34-41 [build_symmetrization_ensemble]: [symmetrization_inputs] has one batch per transformation. *)
Definition build_symmetrization_ensemble (probabilistic : bool) (predictions_model : list (array Z) -> res (list C))
    (symmetrization_inputs : list (list (array Z))) : res (list C) :=
  match symmetrization_inputs with
  | [] => Err IndexError
  | _ =>
      let joint_inputs := stack_last ([], []) symmetrization_inputs in
      do joint_predictions <- predictions_model joint_inputs ;
      let reshaped_predictions := reshape_rows (length symmetrization_inputs) joint_predictions in
      Ok (map (ensemble_op probabilistic (length symmetrization_inputs)) reshaped_predictions)
  end.

(** ensemble.py:44-52 [make_2d_obc_invariants]: the model it returns, on a batch. *)
Definition make_2d_obc_invariants (probabilistic : bool) (predictions_model : list (array Z) -> res (list C)) (batch : list (array Z))
  : res (list C) :=
  do r1 <- mapM (Rot90 1) batch ;
  do r2 <- mapM (Rot90 2) batch ;
  do r3 <- mapM (Rot90 3) batch ;
  let inputs := [batch; r1; r2; r3] in
  do flipped <- mapM (mapM FlipLeftRight) inputs ;
  do predictions <- mapM predictions_model (inputs ++ flipped) ;
  build_ensemble probabilistic predictions.

(** ensemble.py:55-62 [make_pbc_invariants] for the input shape [shape]. *)
Definition make_pbc_invariants (shape : list nat) (apply_also_obc_invariants probabilistic : bool)
    (predictions_model : list (array Z) -> res (list C)) (batch : list (array Z)) : res (list C) :=
  let predictions_model :=
    if apply_also_obc_invariants then make_2d_obc_invariants probabilistic predictions_model else predictions_model in
  do inputs <- mapM (fun i => mapM (Roll (map Z.of_nat i)) batch) (raster shape) ;
  build_symmetrization_ensemble probabilistic predictions_model inputs.

(** ensemble.py:65-69 [make_up_down_invariant]; layers/spins_invariants.py:30-32 [FlipSpins] is the same map. *)
Definition flip_spins (x : array Z) : array Z := (fst x, map (fun v => v * -1)%Z (snd x)).
Definition make_up_down_invariant (probabilistic : bool) (predictions_model : list (array Z) -> res (list C)) (batch : list (array Z))
  : res (list C) :=
  build_symmetrization_ensemble probabilistic predictions_model [batch; map flip_spins batch].

(** * Complex dense layers and restricted Boltzmann machines *)

(** K.dot of one row with a kernel of [units] columns (row-major). *)
Definition dot_row (units : nat) (inputs kernel : list C) : list C :=
  map (fun j => Csum (fun v => Cmult (nth v inputs C0) (nth (v * units + j) kernel C0)) (range (length inputs))) (range units).
(** layers/complex/dense.py:44-50 [ComplexDense.call] on one example; no bias and no activation are [None]. *)
Definition dense_call (units : nat) (kernel : list C) (bias : option (list C)) (activation : option (C -> C)) (inputs : list C) : list C :=
  let output := dot_row units inputs kernel in
  let output := match bias with Some b => map2 Cplus output b | None => output end in
  match activation with Some a => map a output | None => output end.

(** dense.py:58-82 [TranslationInvariantComplexDense.build]: kernel and bias built from the bare ones. *)
Definition translation_kernel (input_dims : list nat) (units : nat) (bare_kernel : list C) : list C :=
  stack_last C0 (map (fun i => snd (tf_roll C0 (map Z.of_nat i) (input_dims ++ [units], bare_kernel))) (raster input_dims)).
Definition number_of_visible (input_dims : list nat) : nat := fold_right Nat.mul 1 input_dims.
Definition translation_bias (input_dims : list nat) (bare_bias : list C) : list C :=
  stack_last C0 (repeat bare_bias (number_of_visible input_dims)).
(** dense.py:84-85 [call]: the columns of the kernel reshaped to (visible, -1). *)
Definition translation_dense_call (input_dims : list nat) (units : nat) (bare_kernel : list C) (bare_bias : option (list C))
    (activation : option (C -> C)) (inputs : list C) : list C :=
  dense_call (units * length (raster input_dims)) (translation_kernel input_dims units bare_kernel)
             (option_map (translation_bias input_dims) bare_bias) activation inputs.

(** Casting of the spins, layers/complex/casting.py [ToComplex64/128]. *)
Definition to_complex (x : list Z) : list C := map (fun v => RtoC (IZR v)) x.

(** machines/rbm.py:35-48 [RBM.build_predictions] on one example; [alpha * visible] hidden units. *)
Definition rbm (alpha : nat) (kernel bias visible_kernel : list C) (s : list Z) : C :=
  let x := to_complex s in
  let lnthetas := dense_call (alpha * length x) kernel (Some bias) (Some lncosh) x in
  let x1 := dense_call 1 visible_kernel None None x in
  let y := Csum (fun z => z) lnthetas in
  Cplus (nth 0 x1 C0) y.

(** machines/rbm.py:51-65 [RBMSym.build_predictions] on one example. *)
Definition rbm_sym (input_dims : list nat) (alpha : nat) (bare_kernel bare_bias visible_kernel : list C) (s : list Z) : C :=
  let x := to_complex s in
  let lnthetas := translation_dense_call input_dims alpha bare_kernel (Some bare_bias) (Some lncosh) x in
  let sum := Csum (fun z => z) x in
  let x1 := dense_call 1 visible_kernel None None [sum] in
  let y := Csum (fun z => z) lnthetas in
  Cplus (nth 0 x1 C0) y.
