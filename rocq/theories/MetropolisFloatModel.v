(** Model of the acceptance tests of samplers/metropolis_hastings.py for amplitudes that may be infinite or nan (log of a vanishing amplitude, overflow). The arrays
    first_temp_out_real and second_temp_out_real (lines 30-33) are complex, so the arithmetic is numpy's arithmetic of complex numbers. Finite results are exact. *)
From Coq Require Import List ZArith Reals Bool Arith.
From Verif Require Import Base Cplx ObservableModel ExactModel McmcStatsModel MetropolisModel.
Import ListNotations.
Local Open Scope R_scope.

(** * numpy *)
Definition np_sub (x y : npfloat) : npfloat := np_add x (np_neg y).
(** An infinity of the given sign times a real number: 0 times infinity is nan. *)
Definition np_inf_times (positive : bool) (a : R) : npfloat :=
  if Req_EM_T a 0 then NaN else if Bool.eqb positive (if Rlt_dec 0 a then true else false) then PlusInf else MinusInf.
Definition np_mul (x y : npfloat) : npfloat :=
  match x, y with
  | NaN, _ | _, NaN => NaN
  | Finite a, Finite b => Finite (a * b)
  | PlusInf, Finite a | Finite a, PlusInf => np_inf_times true a
  | MinusInf, Finite a | Finite a, MinusInf => np_inf_times false a
  | PlusInf, PlusInf | MinusInf, MinusInf => PlusInf
  | PlusInf, MinusInf | MinusInf, PlusInf => MinusInf
  end.
Definition np_isnan (x : npfloat) : bool := match x with NaN => true | _ => false end.
Definition np_isfinite (x : npfloat) : bool := match x with Finite _ => true | _ => false end.
Definition np_less (x y : npfloat) : bool :=
  match x, y with
  | Finite a, Finite b => if Rlt_dec a b then true else false
  | MinusInf, Finite _ | MinusInf, PlusInf | Finite _, PlusInf => true
  | _, _ => false
  end.
Definition np_equal (x y : npfloat) : bool :=
  match x, y with
  | Finite a, Finite b => if Req_EM_T a b then true else false
  | PlusInf, PlusInf | MinusInf, MinusInf => true
  | _, _ => false
  end.
Definition np_log (x : npfloat) : npfloat :=
  match x with
  | Finite a => if Rlt_dec 0 a then Finite (ln a) else if Req_EM_T a 0 then MinusInf else NaN
  | PlusInf => PlusInf
  | MinusInf | NaN => NaN
  end.

(** numpy.complex128 (numpy/core/src/umath/loops: multiply, minimum, greater; npymath: npy_cexp). *)
Definition npcomplex := (npfloat * npfloat)%type.
Definition np_cmul (x y : npcomplex) : npcomplex :=
  (np_sub (np_mul (fst x) (fst y)) (np_mul (snd x) (snd y)), np_add (np_mul (fst x) (snd y)) (np_mul (snd x) (fst y))).
(** CGT and CLE: lexicographic, false if the decisive comparison involves a nan. *)
Definition np_cgreater (x y : npcomplex) : bool :=
  (np_less (fst y) (fst x) && negb (np_isnan (snd x)) && negb (np_isnan (snd y))) || (np_equal (fst x) (fst y) && np_less (snd y) (snd x)).
Definition np_cless_equal (x y : npcomplex) : bool :=
  (np_less (fst x) (fst y) && negb (np_isnan (snd x)) && negb (np_isnan (snd y))) ||
  (np_equal (fst x) (fst y) && (np_less (snd x) (snd y) || np_equal (snd x) (snd y))).
Definition np_cminimum (x y : npcomplex) : npcomplex :=
  if np_isnan (fst x) || np_isnan (snd x) || np_cless_equal x y then x else y.
Definition np_cexp (x : npcomplex) : npcomplex :=
  match x with
  | (Finite r, Finite i) => (Finite (exp r * cos i), Finite (exp r * sin i))
  | (Finite _, _) => (NaN, NaN)
  | (NaN, Finite i) => (NaN, if Req_EM_T i 0 then Finite 0 else NaN)
  | (NaN, _) => (NaN, NaN)
  | (PlusInf, Finite i) => if Req_EM_T i 0 then (PlusInf, Finite 0) else (np_inf_times true (cos i), np_inf_times true (sin i))
  | (PlusInf, _) => (PlusInf, NaN)
  | (MinusInf, _) => (Finite 0, Finite 0)
  end.
Definition np_cisfinite (x : npcomplex) : bool := np_isfinite (fst x) && np_isfinite (snd x).

(** * The samplers *)

(** metropolis_hastings.py:106-108, 183-185: [subtract] of the real parts into a complex array, times 2. *)
Definition float_log_ratio (candidate_value sample_value : npcomplex) : npcomplex :=
  np_cmul (np_sub (fst candidate_value) (fst sample_value), Finite 0) (Finite 2, Finite 0).
(** metropolis_hastings.py:106-110 for one chain. *)
Definition float_symmetric_accepts (candidate_value sample_value : npcomplex) (u : R) : bool :=
  np_cgreater (np_cexp (np_cminimum (float_log_ratio candidate_value sample_value) (Finite 0, Finite 0))) (Finite u, Finite 0).
(** metropolis_hastings.py:183-187 for one chain. *)
Definition float_hamiltonian_accepts (num_of_conn candidate_num_of_conn : nat) (candidate_value sample_value : npcomplex) (u : R) : bool :=
  let log_ratio := float_log_ratio candidate_value sample_value in
  let log_ratio := (np_add (fst log_ratio) (np_log (np_div (INR num_of_conn) (INR candidate_num_of_conn))), np_add (snd log_ratio) (Finite 0)) in
  np_cgreater (np_cexp log_ratio) (Finite u, Finite 0).

(** self.sample and self.sample_machine_values. *)
Record float_chains := { float_sample : list (list Z); float_values : list npcomplex }.
(** metropolis_hastings.py:39-40 [machine_updated]. *)
Definition float_machine_updated (log_psi : list Z -> npcomplex) (st : float_chains) : float_chains :=
  {| float_sample := float_sample st; float_values := map log_psi (float_sample st) |}.

(** metropolis_hastings.py:99-113 [_sweep] of the symmetric samplers, with the test of lines 103-105. *)
Definition float_symmetric_sweep {D} (candidate : list Z -> D -> list Z) (log_psi : list Z -> npcomplex) (input : list D * list R) (st : float_chains)
  : res (float_chains * nat) :=
  let candidates := map2 candidate (float_sample st) (fst input) in
  let candidates_machine_values := map log_psi candidates in
  if negb (forallb np_cisfinite candidates_machine_values) then Err GenericException else
  let accepts := map2 (fun cs u => float_symmetric_accepts (fst cs) (snd cs) u)
                   (combine candidates_machine_values (float_values st)) (snd input) in
  Ok ({| float_sample := masked_assign accepts candidates (float_sample st);
         float_values := masked_assign accepts candidates_machine_values (float_values st) |},
      count_true accepts).

(** metropolis_hastings.py:173-190 [_sweep] of the Hamiltonian sampler, which has no such test. *)
Definition float_hamiltonian_sweep (op : operator) (log_psi : list Z -> npcomplex) (input : list nat * list R) (st : float_chains) : res (float_chains * nat) :=
  let n := length (float_sample st) in
  do c <- find_conn op (float_sample st);
  let num_of_conn := map (fun i => count_true (at_sample i false (uses c))) (range n) in
  do candidates <- candidates_loop c 0 (fst input);
  do c' <- find_conn op candidates;
  let candidates_num_of_conn := map (fun i => count_true (at_sample i false (uses c'))) (range n) in
  let candidates_machine_values := map log_psi candidates in
  let accepts := map2 (fun x u => float_hamiltonian_accepts (fst (fst x)) (snd (fst x)) (fst (snd x)) (snd (snd x)) u)
                   (combine (combine num_of_conn candidates_num_of_conn) (combine candidates_machine_values (float_values st)))
                   (snd input) in
  Ok ({| float_sample := masked_assign accepts candidates (float_sample st);
         float_values := masked_assign accepts candidates_machine_values (float_values st) |},
      count_true accepts).

(** metropolis_hastings.py:61-62: [k] sweeps; [draws t] is the random input of sweep number t. *)
Fixpoint float_run_sweeps {I} (sweep : I -> float_chains -> res (float_chains * nat)) (draws : nat -> I) (t k : nat) (st : float_chains) (accepted : nat)
  : res (float_chains * nat) :=
  match k with
  | O => Ok (st, accepted)
  | S k' => do r <- sweep (draws t) st; float_run_sweeps sweep draws (S t) k' (fst r) (accepted + snd r)
  end.
