(** The network of examples/benchmark.py (C81). *)
From Coq Require Import List ZArith Arith Bool Reals Lia Lra.
From Verif Require Import Base Cplx ComplexModel ComplexConvModel BenchmarkModel BenchmarkSpec BenchmarkProofs.
Import ListNotations.
Local Open Scope nat_scope.

(** C81: as long as a kernel covers the ring at most once and one site more, every layer keeps the ring, and a prediction is the sum over all sites and channels of
    the last layer, for any number of layers, any width and any weights. *)
Theorem C81_network : forall n k width ws rows, 0 < n -> 0 < k <= n + 1 -> benchmark_predictions n k width ws rows = Ok (map (log_psi n k width ws) rows).
Proof. exact predictions_ok. Qed.
Print Assumptions C81_network.

Example C81_network_ex : 0 < 20 /\ 0 < 3 <= 20 + 1.
Proof. lia. Qed.

(** C81: such networks do not tell a configuration from the same configuration turned around the ring. *)
Theorem C81_translation : forall n k width ws rows m, 0 < n -> 0 < k <= n + 1 -> Forall (fun row => length row = n) rows -> m <= n ->
  benchmark_predictions n k width ws (map (turned m) rows) = benchmark_predictions n k width ws rows.
Proof.
  intros n k width ws rows m N K F M. rewrite !predictions_ok by assumption. f_equal. rewrite map_map. apply map_ext_in. intros row I. rewrite Forall_forall in F. specialize (F row I).
  subst n. apply turn_psi; [destruct row; [cbn in N; lia|discriminate]|exact M].
Qed.
Print Assumptions C81_translation.

Example C81_translation_ex : 0 < 4 /\ 0 < 5 <= 4 + 1 /\ Forall (fun row => length row = 4) [[1; 1; -1; 1]%Z; [1; -1; -1; 1]%Z] /\ 3 <= 4 /\
  map (turned 3) [[1; 1; -1; 1]%Z; [1; -1; -1; 1]%Z] = [[1; 1; 1; -1]%Z; [1; 1; -1; -1]%Z].
Proof. split; [lia|]. split; [lia|]. split; [repeat constructor|]. split; [lia|reflexivity]. Qed.

(** C81: with at least one layer they do not tell a configuration from the one with all spins flipped: the layers have no bias and lncosh is even. *)
Theorem C81_flip : forall n k width w ws rows, 0 < n -> 0 < k <= n + 1 ->
  benchmark_predictions n k width (w :: ws) (map (map Z.opp) rows) = benchmark_predictions n k width (w :: ws) rows.
Proof.
  intros n k width w ws rows N K. rewrite !predictions_ok by assumption. f_equal. rewrite map_map. apply map_ext. intros row. apply flip_psi, N.
Qed.
Print Assumptions C81_flip.

Example C81_flip_ex : map (map Z.opp) [[1; 1; -1]%Z] = [[-1; -1; 1]%Z] /\ 0 < 3 /\ 0 < 2 <= 3 + 1.
Proof. split; [reflexivity|]. lia. Qed.

(** C81: kernels of any length. The ring is continued at most once around, so longer kernels make every layer shorter, until no place is left and the layers raise. *)
Theorem C81_any_kernel : forall n k width ws rows, 0 < n -> 0 < k ->
  benchmark_predictions n k width ws rows =
    if 0 <? places_after n k (length ws) then Ok (map (fun row => shrinking_network n k width 1 ws (fun j _ => RtoC (IZR (nth j row 0%Z)))) rows) else Err ValueError.
Proof. exact any_predictions. Qed.
Print Assumptions C81_any_kernel.

Example C81_any_kernel_ex : map (places_after 10 12) [0; 1; 2; 3; 4; 5] = [10; 9; 7; 3; 0; 0].
Proof. reflexivity. Qed.

(** C81: kernels that are longer do tell a configuration from the turned one. *)
Theorem C81_translation_refuted : exists n k width ws row m, 0 < n /\ n + 1 < k <= 2 * n /\ length row = n /\ m <= n /\
  exists p q, benchmark_predictions n k width ws [row] = Ok [p] /\ benchmark_predictions n k width ws [turned m row] = Ok [q] /\ p <> q.
Proof.
  exists 3, 5, 1, [two_taps], [1; 1; -1]%Z, 1. split; [lia|]. split; [lia|]. split; [reflexivity|]. split; [lia|]. do 2 eexists.
  split; [rewrite any_predictions by lia; reflexivity|]. split; [rewrite any_predictions by lia; reflexivity|]. exact shrinking_not_turned.
Qed.
Print Assumptions C81_translation_refuted.
