(** Properties C14, C29, C30, C31, C32. *)
From Coq Require Import List Reals Lra Lia Arith Bool.
From Verif Require Import Base Cplx Vec TrainingModel TrainingSpec TrainingProofs.
Import ListNotations.

(** C14: the fast sampler returns (batch / mini) * mini samples: all of them iff mini divides batch. *)
Theorem C14_fast_sampler_count : forall (X : Type) (sampling : nat -> nat -> list X) (B : nat) (mini : option nat) (k : nat),
  0 < B -> mini <> Some 0 -> (forall i m, length (sampling i m) = m) ->
  let m := snd (sampler_sizes B mini) in
  exists k' out, fast_next sampling B m k = Ok (k', out) /\ k < k' /\
    length out = B / m * m /\ length out <= B /\
    (length out = B <-> B mod m = 0) /\ (length out < B <-> B mod m <> 0).
Proof. exact @fast_next_count. Qed.
Print Assumptions C14_fast_sampler_count.
Example C14_fast_sampler_count_ex :
  fast_next (fun i m => repeat i m) 7 (snd (sampler_sizes 7 (Some 3))) 4 = Ok (6, [4; 4; 4; 5; 5; 5]).
Proof. reflexivity. Qed.

(** C14: a sampler asked for batch_size samples can return fewer. *)
Theorem C14_full_batch_refuted : exists (out : list nat),
  fast_next (fun i m => repeat i m) 7 (snd (sampler_sizes 7 (Some 3))) 0 = Ok (2, out) /\ length out < 7.
Proof. exists [0; 0; 0; 1; 1; 1]. split; [reflexivity | cbn; lia]. Qed.
Print Assumptions C14_full_batch_refuted.

(** C14: an ensemble whose members each return their batch size returns its own batch size, as the
    concatenation of the members' batches in order. *)
Theorem C14_ensemble_count : forall (S X : Type) (members : list (member S X)) (b : nat) (s : S),
  ensemble_batch members = Ok b ->
  (forall m, In m members -> forall t, exists t' out, member_next m t = Ok (t', out) /\ length out = member_batch m) ->
  exists s' out, ensemble_next members s = Ok (s', out) /\ length out = b.
Proof. exact @ensemble_count. Qed.
Print Assumptions C14_ensemble_count.
Theorem C14_ensemble_concatenates : forall (S X : Type) (members : list (member S X)) (s s' : S) (out : list X),
  ensemble_next members s = Ok (s', out) <-> exists outs, runs members s outs s' /\ out = concat outs.
Proof. exact @ensemble_runs. Qed.
Print Assumptions C14_ensemble_concatenates.
Example C14_ensemble_ex :
  let m := {| member_batch := 2; member_next := fun s => Ok (s + 1, [s; s]) |} in
  ensemble_batch [m; m; m] = Ok 6 /\ ensemble_next [m; m; m] 0 = Ok (3, [0; 0; 1; 1; 2; 2]).
Proof. split; reflexivity. Qed.

(** C14: members with different batch sizes are rejected. *)
Theorem C14_ensemble_unequal_raises : forall (S X : Type) (m1 m2 : member S X) pre post,
  member_batch m1 <> member_batch m2 -> ensemble_batch (m1 :: pre ++ m2 :: post) = Err AssertionError.
Proof. exact @ensemble_unequal. Qed.
Print Assumptions C14_ensemble_unequal_raises.
Example C14_ensemble_unequal_ex : 2 <> 3.
Proof. lia. Qed.

(** C29: the n-th mini batch is entries (n mod q) * mini ... of batch n / q, where q = batch / mini; the update
    frequency equals q exactly when mini divides batch and is larger otherwise, in which case the last
    batch mod mini entries of every batch are never served. *)
Theorem C29_mini_batches : forall (X : Type) (nb : nat -> list X) (G0 : generator X) (B : nat) (mini : option nat),
  0 < B -> mini <> Some 0 ->
  exists G, set_batch_size G0 B mini = Ok G /\
    let m := gen_mini G in
    let q := B / m in
    0 < m <= B /\
    (gen_freq G = q <-> B mod m = 0) /\ (q < gen_freq G <-> B mod m <> 0) /\
    forall N n, n < N -> nth_error (snd (serve nb G N)) n =
       Some (firstn m (skipn (n mod q * m) (nb (gen_fetched G0 + n / q)))).
Proof. exact @mini_batches_any. Qed.
Print Assumptions C29_mini_batches.
Example C29_mini_batches_ex : forall G, set_batch_size (empty_generator (X := nat)) 7 (Some 3) = Ok G ->
  snd (serve (fun k => map (fun i => 10 * k + i) (seq 0 7)) G 3) = [[0; 1; 2]; [3; 4; 5]; [10; 11; 12]] /\ gen_freq G = 3.
Proof. intros G H. injection H as <-. split; reflexivity. Qed.

(** C29: when mini divides batch, each group of update_params_frequency mini batches is one whole batch. *)
Theorem C29_partition : forall (X : Type) (nb : nat -> list X) (G0 : generator X) (B : nat) (mini : option nat),
  0 < B -> mini <> Some 0 -> (forall k, length (nb k) = B) ->
  exists G, set_batch_size G0 B mini = Ok G /\
    (B mod gen_mini G = 0 -> forall k N, (k + 1) * gen_freq G <= N ->
       concat (firstn (gen_freq G) (skipn (k * gen_freq G) (snd (serve nb G N)))) = nb (gen_fetched G0 + k)).
Proof. exact @mini_batches_divide. Qed.
Print Assumptions C29_partition.
Example C29_partition_ex : 0 < 6 /\ Some 3 <> Some 0 /\ 6 mod 3 = 0.
Proof. repeat split; try lia; try discriminate. Qed.

Local Open Scope R_scope.

(** C30: started fresh with frequency f, after k*f+r steps (r < f) the wrapped optimizer was applied exactly k
    times, each time to the sum (or mean) of the f gradients of its window evaluated at the weights of that
    window; the weights do not move in between and the accumulators hold the r gradients seen since. *)
Theorem C30_windows : forall (S : Type) (O : optimizer S) (d f : nat) (sum : bool) (decay : R) (ar : list R -> list R)
    (gradient : nat -> list R -> list R) (s0 : S),
  (0 < f)%nat -> sized O d gradient -> forall (k r : nat), (r < f)%nat ->
  let W := window_updates O d f (step_scale sum f) ar gradient s0 k in
  exists A, convert_to_accumulate O s0 f = Ok A /\
  exists B, train O sum decay ar gradient A (k * f + r) = Ok B /\ inner B = W /\
    accumulators B =
      vsum d (map (fun i => vscale (step_scale sum f) (gradient (k * f + i)%nat (weights O W))) (seq 0 r)).
Proof.
  exact (fun S O d f sum decay ar gradient s0 Hf Hd k r Hr =>
    match train_window O d f sum decay ar gradient s0 Hf Hd k r Hr with
    | ex_intro _ A (conj EA (ex_intro _ B (conj EB (conj _ (conj _ (conj EI (conj EC _))))))) =>
        ex_intro _ A (conj EA (ex_intro _ B (conj EB (conj EI EC))))
    end).
Qed.
Print Assumptions C30_windows.
Example C30_windows_ex : sized {| weights := fun s : R => [s]; apply_gradients := fun s g => s - nth 0 g 0 |} 1
  (fun n w => [INR n + nth 0 w 0]).
Proof. split; intros; reflexivity. Qed.

(** C30: from any state with [n] steps done and any (possibly just changed) frequency f, the next update happens
    after exactly f - n mod f further steps, and uses what was accumulated before plus those gradients. *)
Theorem C30_any_frequency : forall (S : Type) (O : optimizer S) (d : nat) (sum : bool) (decay : R) (ar : list R -> list R)
    (gradient : nat -> list R -> list R) (A : accumulating S),
  sized O d gradient -> length (accumulators A) = d -> (0 < acc_freq A)%nat ->
  let f := acc_freq A in
  let m := (f - acc_iterations A mod f)%nat in
  let part r := map (fun i => vscale (step_scale sum f) (gradient i (weights O (inner A)))) (seq 0 r) in
  (forall r, (r < m)%nat -> exists B, train O sum decay ar gradient A r = Ok B /\ inner B = inner A /\
     acc_iterations B = (acc_iterations A + r)%nat /\ acc_freq B = f /\
     accumulators B = vadd (accumulators A) (vsum d (part r))) /\
  (exists B, train O sum decay ar gradient A m = Ok B /\ acc_iterations B = (acc_iterations A + m)%nat /\
     inner B = apply_gradients O (inner A) (ar (vadd (accumulators A) (vsum d (part m)))) /\
     accumulators B = vzero d).
Proof. exact @train_until. Qed.
Print Assumptions C30_any_frequency.
Example C30_any_frequency_ex : exists A,
    let O := {| weights := fun s : R => [s]; apply_gradients := fun s g => s - nth 0 g 0 |} in
    (do A0 <- convert_to_accumulate O 5 3; train O true 0 (fun v => v) (fun n w => [INR n]) A0 2) = Ok A /\
    length (accumulators (set_update_params_frequency A 4)) = 1%nat /\
    (acc_freq (set_update_params_frequency A 4) - acc_iterations A mod 4 = 2)%nat.
Proof. eexists. split; [reflexivity|]. split; reflexivity. Qed.

(** C30: that number of gradients is smaller than the frequency exactly when the step count is not a multiple of
    the new frequency; the claim that every update uses f gradients fails after changing f. *)
Theorem C30_short_window : forall n f, (0 < f)%nat -> (f - n mod f < f <-> n mod f <> 0)%nat.
Proof. exact gap_short. Qed.
Print Assumptions C30_short_window.
Example C30_short_window_ex : (4 - 6 mod 4 = 2)%nat.
Proof. reflexivity. Qed.

(** C31: in mean mode mini batch training is exactly full batch training; in sum mode the gradients are larger by
    the factor update_params_frequency. Batches may depend on the weights at the time they are drawn. *)
Theorem C31_mini_batch_training : forall (X S : Type) (O : optimizer S) (d B m : nat) (sum : bool)
    (nb : nat -> list R -> list X) (sg : list R -> X -> list R) (s0 : S),
  (0 < m)%nat -> (0 < B)%nat -> (B mod m = 0)%nat ->
  (forall k w, length (nb k w) = B) -> (forall s, length (weights O s) = d) -> (forall w x, length (sg w x) = d) ->
  forall (G0 : generator X) (k : nat), gen_fetched G0 = 0%nat -> (m <= B)%nat ->
    exists G A Gn An, set_batch_size G0 B (Some m) = Ok G /\
      convert_to_accumulate O s0 (gen_freq G) = Ok A /\
      fit O sum d nb sg G A (k * gen_freq G) = Ok (Gn, An) /\
      inner An = full_batch_training O d (if sum then INR (gen_freq G) else 1) nb sg s0 k.
Proof. exact @fit_full. Qed.
Print Assumptions C31_mini_batch_training.
Example C31_mini_batch_training_ex : (6 mod 3 = 0)%nat /\ gen_fetched (empty_generator (X := R)) = 0%nat.
Proof. split; reflexivity. Qed.

(** C32: the averaged weights are a convex combination of the weights after the k updates. *)
Theorem C32_convex_combination : forall (S : Type) (O : optimizer S) (d f : nat) (sum : bool) (decay : R)
    (ar : list R -> list R) (gradient : nat -> list R -> list R) (s0 : S) (k r : nat),
  (0 < f)%nat -> sized O d gradient -> 0 < decay < 1 -> (0 < k)%nat -> (r < f)%nat ->
  let W j := weights O (window_updates O d f (step_scale sum f) ar gradient s0 j) in
  let c j := (1 - decay) * decay ^ (k - j) / (1 - decay ^ k) in
  (exists A B, convert_to_accumulate O s0 f = Ok A /\ train O sum decay ar gradient A (k * f + r) = Ok B /\
     length (weights_from_ema decay B) = d /\
     forall i, nth i (weights_from_ema decay B) 0 = Rsum (fun j => c j * nth i (W j) 0) (seq 1 k)) /\
  (forall j, In j (seq 1 k) -> 0 <= c j) /\ Rsum c (seq 1 k) = 1.
Proof. exact @ema_convex. Qed.
Print Assumptions C32_convex_combination.
Example C32_convex_combination_ex : 0 < 9 / 10 < 1.
Proof. lra. Qed.
