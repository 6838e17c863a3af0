(** Vectors of NetKet in the numbering of the exact objects (exact/utils.py). *)
From Coq Require Import List ZArith Bool.
From Verif Require Import Base IsingModel ExactUtilsModel.
Import ListNotations.
Local Open Scope Z_scope.

(** Assignment of a number to an entry of an int32 array (line 91); numpy raises OverflowError, which is [GenericException] here, when it does not fit. *)
Definition as_int32 (z : Z) : res Z := if (- 2 ^ 31 <=? z) && (z <? 2 ^ 31) then Ok z else Err GenericException.

(** exact/utils.py:86-92 [netket_vector_to_exact_variational_vector]. [state_to_number] is that of NetKet's HilbertIndex, which is external. The states are those of
    exact_variational.py:121 (the configurations of the numbers 0 ... 2^n - 1); their shape is left out (row-major lists). *)
Definition netket_vector_to_exact_variational_vector {A} (state_to_number : list Z -> res Z) (netket_vector : list A) (n_spins : nat) : res (list A) :=
  let states := decimal_array_to_binary_array (arange 0 (2 ^ n_spins)) n_spins false None in
  do index <- mapM (fun s => do k <- state_to_number s ; as_int32 k) states ;
  mapM (np_index netket_vector) index.
