(** Model of layers/spins_invariants.py:10-27 (EqualUpDownSpins) and of machines/abstract_machine.py:49-57 with
    [equal_up_down_spins=True]. Sites are numbered in memory (row-major) order, one sample at a time. *)
From Coq Require Import List ZArith Reals Bool Floats.SpecFloat.
From Verif Require Import Base Cplx AutoregressiveModel.
Import ListNotations.
Local Open Scope Z_scope.

(** spins_invariants.py:15-16: one_hot of (1 - x) // 2 with two categories. The entries are float32 in the code; they are small whole numbers
    here, and so are their sums (float32 is exact on them below 2^24 sites). *)
Definition one_hot_input (x : Z) : list Z := map (fun c => if ((1 - x) / 2 =? Z.of_nat c) then 1 else 0) (range 2).

(** spins_invariants.py:18-19: tensorflow.cumsum(..., axis=1, exclusive=True) over the flattened sites. *)
Fixpoint cumsum_exclusive (acc : list Z) (rows : list (list Z)) : list (list Z) :=
  match rows with
  | [] => []
  | r :: t => acc :: cumsum_exclusive (map2 Z.add acc r) t
  end.

(** spins_invariants.py:17-21: [input_cumsum >= number_of_spins / 2.0], written without the fraction. *)
Definition reached_half (s : list Z) : list (list bool) :=
  map (map (fun c => Z.of_nat (length s) <=? 2 * c)) (cumsum_exclusive [0; 0] (map one_hot_input s)).

(** ** Exact arithmetic *)

(** spins_invariants.py:10. *)
Definition LOG_ZERO : R := IZR (- (10 ^ 300)).

(** spins_invariants.py:13-22 [equal_up_down_spins_function] with real numbers in place of float32: x + LOG_ZERO * cast(reached_half). *)
Definition equal_up_down_spins (x : list (list C)) (s : list Z) : list (list C) :=
  map2 (map2 (fun z (b : bool) => (z + RtoC (LOG_ZERO * (if b then 1 else 0))%R)%C)) x (reached_half s).

(** abstract_machine.py:51-53: the network whose output is normalised. *)
Definition masked_net (net : list Z -> nat -> list C) (s : list Z) (i : nat) : list C :=
  nth i (equal_up_down_spins (map (net s) (range (length s))) s) [].

(** ** binary32 *)

(** float32 numbers: 24 bits of precision, largest exponent 128. *)
Definition float32 := spec_float.
Definition f32_add : float32 -> float32 -> float32 := SFadd 24 128.
Definition f32_sub : float32 -> float32 -> float32 := SFsub 24 128.
Definition f32_mul : float32 -> float32 -> float32 := SFmul 24 128.
Definition f32_of_Z (z : Z) : float32 := binary_normalize 24 128 z 0 false.

(** spins_invariants.py:20: tensorflow.fill turns the python number into a float32 tensor; line 21: the cast of the comparison. *)
Definition f32_LOG_ZERO : float32 := f32_of_Z (- (10 ^ 300)).
Definition f32_mask (b : bool) : float32 := f32_mul f32_LOG_ZERO (f32_of_Z (if b then 1 else 0)).

(** spins_invariants.py:22: real parts of [x + mask] ([mask] cast to the complex dtype has imaginary part 0). A mask computed in float32 and cast to
    float64 keeps its infinities and NaNs, so this also covers float64 networks. *)
Definition f32_equal_up_down_spins (x : list (list float32)) (s : list Z) : list (list float32) :=
  map2 (map2 (fun z b => f32_add z (f32_mask b))) x (reached_half s).

(** autoregressive.py:8-12: [x - norm] on the real parts of one row; [norm] is the logsumexp of the row, here any function of it. *)
Definition f32_normalize (norm : list float32 -> float32) (x : list float32) : list float32 := map (fun v => f32_sub v (norm x)) x.

(** autoregressive.py:18-22: real part of the sum of conditionals times one-hot entries (whose imaginary parts are zero: the product
    (a + ib)(c + 0i) has real part a*c - b*0). *)
Definition f32_combine (x : list (list (float32 * float32))) (x_input : list (list Z)) : float32 :=
  fold_right f32_add (f32_of_Z 0)
    (concat (map2 (map2 (fun c r => f32_sub (f32_mul (fst c) (f32_of_Z r)) (f32_mul (snd c) (f32_of_Z 0)))) x x_input)).

(** abstract_machine.py:31-57 with [equal_up_down_spins=True] for one sample: real part of log psi; [re]/[im] are the outputs of the network. *)
Definition f32_predictions (norm : list float32 -> float32) (re im : list (list float32)) (s : list Z) : float32 :=
  let conditional := map (f32_normalize norm) (f32_equal_up_down_spins re s) in
  f32_combine (map2 (map2 pair) conditional im) (map one_hot_input s).
