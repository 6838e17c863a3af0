(** Model of deepar/layers/autoregressive.py, deepar/layers/one_hot.py, the classes of
    machines/abstract_machine.py that combine conditionals, deepar/samplers/autoregressive.py and the
    log-sum-exp helpers of exact/utils.py. Floating point numbers are real numbers. *)
From Coq Require Import List ZArith Reals Bool.
From Verif Require Import Base Cplx OrderingModel.
Import ListNotations.
Local Open Scope R_scope.

(** tensorflow.math.reduce_logsumexp over one axis, used at autoregressive.py:10,14: log of the sum of the
    exponentials. TensorFlow subtracts the maximum first, which changes rounding only. *)
Definition reduce_logsumexp (x : list R) : R := ln (Rsum exp x).

(** autoregressive.py:7,13-15 [normalize_in_log_space], real branch, one row (last axis). *)
Definition normalize_real (norm_type : R) (x : list R) : list R :=
  let norm := (1 / norm_type) * reduce_logsumexp (map (fun v => v * norm_type) x) in
  map (fun v => v - norm) x.

(** autoregressive.py:7-12 [normalize_in_log_space], complex branch, one row: the imaginary part is kept. *)
Definition normalize_complex (norm_type : R) (x : list C) : list C :=
  let x_real := map Re x in
  let x_imag := map Im x in
  let norm := (1 / norm_type) * reduce_logsumexp (map (fun v => v * norm_type) x_real) in
  map2 (fun re im => (re, im)) (map (fun v => v - norm) x_real) x_imag.

(** tensorflow.one_hot with on_value 1, off_value 0: out of range indices give an all zero row. *)
Definition tf_one_hot (idx : Z) (depth : nat) : list R :=
  map (fun c => if (idx =? Z.of_nat c)%Z then 1 else 0) (range depth).

(** one_hot.py:7-9 [plus_minus_one_to_one_hot], one entry. Inputs are integers here (the cast to int32
    is the identity); [//] on int32 is floor division. *)
Definition plus_minus_one_to_one_hot (x : Z) : list R := tf_one_hot ((1 - x) / 2)%Z 2.

(** one_hot.py:12-14 [to_one_hot], one entry. *)
Definition to_one_hot (num_of_categories : nat) (x : Z) : list R := tf_one_hot x num_of_categories.

(** autoregressive.py:18-22 [combine_autoregressive_conditionals] for one sample: the sum over all sites and
    categories of conditional times one-hot entry. Complex conditionals; [ToComplex64]
    (abstract_machine.py:36) embeds the one-hot entries into C. *)
Definition combine_complex (x : list (list C)) (x_input : list (list R)) : C :=
  Csum (fun z => z) (concat (map2 (map2 (fun c r => (c * RtoC r)%C)) x x_input)).

(** The same for real conditionals (models built from the deepar layers). *)
Definition combine_real (x : list (list R)) (x_input : list (list R)) : R :=
  Rsum (fun z => z) (concat (map2 (map2 Rmult) x x_input)).

(** abstract_machine.py:49-57 [AutoNormalizedAutoregressiveMachine] without [equal_up_down_spins]: the
    conditional log wave function at one site. [net s i] is the row (one complex number per category) that
    the unnormalised network gives site [i] on input [s]; sites are numbered in memory (row-major) order. *)
Definition conditional_log_wave_function (net : list Z -> nat -> list C) (s : list Z) (i : nat) : list C :=
  normalize_complex 2 (net s i).

(** abstract_machine.py:55-56: conditional log probabilities, twice the real part. *)
Definition conditional_log_probs (net : list Z -> nat -> list C) (s : list Z) (i : nat) : list R :=
  map (fun z => Re z * 2) (conditional_log_wave_function net s i).

(** abstract_machine.py:31-38 [AutoregressiveMachine.predictions] for one sample. *)
Definition predictions (net : list Z -> nat -> list C) (s : list Z) : C :=
  combine_complex (map (conditional_log_wave_function net s) (range (length s)))
                  (map plus_minus_one_to_one_hot s).

(** A purely probabilistic autoregressive model assembled from ToOneHot, NormalizeConditionalProbabilities
    (norm_type 1, autoregressive.py:37) and CombineAutoregressiveConditionals. *)
Definition log_prob (num_of_categories : nat) (net : list Z -> nat -> list R) (s : list Z) : R :=
  combine_real (map (fun i => normalize_real 1 (net s i)) (range (length s)))
               (map (to_one_hot num_of_categories) s).

(** * deepar/samplers/autoregressive.py *)

(** samplers/autoregressive.py:35-47: the memory index written for location [i]: one or two coordinates,
    more raise; coordinates beyond the array raise IndexError. *)
Definition site_index (input_size : list nat) (i : loc) : res nat :=
  match i with
  | [h] => match input_size with
           | [n] => if (h <? n)%nat then Ok h else Err IndexError
           | _ => Err IndexError   (* assigning a sub-array; not used with well-formed orderings *)
           end
  | [h; w] => match input_size with
              | [n; m] => if ((h <? n) && (w <? m))%nat%bool then Ok (h * m + w)%nat else Err IndexError
              | _ => Err IndexError
              end
  | _ => Err GenericException
  end.

(** samplers/autoregressive.py:37-39,42-44: [numpy.exp(log_probs[..., 0]) > random_batch] as a number, mapped
    to +-1 unless [zero_base]. *)
Definition draw_value (zero_base : bool) (log_p0 u : R) : Z :=
  let b := if Rlt_dec u (exp log_p0) then 1%Z else 0%Z in
  if zero_base then b else (2 * b - 1)%Z.

(** samplers/autoregressive.py:33-47, the loop for one row of the batch. [log_probs batch h] is row [h] of the
    prediction; [u] is the row of [random_batch]. *)
Fixpoint sample_loop (input_size : list nat) (zero_base : bool) (log_probs : list Z -> nat -> list R)
    (u : list R) (order : list loc) (batch : list Z) : res (list Z) :=
  match order with
  | [] => Ok batch
  | i :: t =>
      do h <- site_index input_size i;
      sample_loop input_size zero_base log_probs u t
        (upd batch h (draw_value zero_base (nth 0 (log_probs batch h) 0) (nth h u 0)))
  end.

(** samplers/autoregressive.py:29-48 [__next__] for one row: starts from zeros. *)
Definition sampler_next (input_size : list nat) (zero_base : bool) (log_probs : list Z -> nat -> list R)
    (order : list loc) (u : list R) : res (list Z) :=
  sample_loop input_size zero_base log_probs u order (repeat 0%Z (fold_right Nat.mul 1%nat input_size)).

(** * exact/utils.py *)

(** numpy.max of a non-empty array; ValueError on an empty one. *)
Definition np_max (x : list R) : res R :=
  match x with
  | [] => Err ValueError
  | a :: t => Ok (fold_left Rmax t a)
  end.

(** exact/utils.py:81-83 [log_fsum_exp]; [fsum] is the exact sum. *)
Definition log_fsum_exp (arr : list R) : res R :=
  do m <- np_max arr;
  Ok (ln (Rsum (fun v => v) (map exp (map (fun x => x - m) arr))) + m).

(** exact/utils.py:75-78 [complex_norm_log_fsum_exp]. *)
Definition complex_norm_log_fsum_exp (arr : list C) : res R :=
  let real_arr := map Re arr in
  do m <- np_max real_arr;
  Ok (ln (Rsum (fun v => v) (map exp (map (fun x => x - m) real_arr))) + m).
