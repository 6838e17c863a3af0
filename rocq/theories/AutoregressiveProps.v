(** Properties C04, C13, C18, C60. *)
From Coq Require Import List ZArith Reals Lra Lia.
From Verif Require Import Base Cplx OrderingModel OrderingSpec OrderingProofs AutoregressiveModel
  AutoregressiveSpec AutoregressiveProofs.
Import ListNotations.
Local Open Scope R_scope.

(** C04: the helper returns the logarithm of the sum of the moduli. *)
Theorem C04_complex_norm : forall v : list C, v <> [] ->
  complex_norm_log_fsum_exp v = Ok (ln (Rsum (fun z => Cmod (Cexp z)) v)).
Proof. exact complex_norm_ok. Qed.
Print Assumptions C04_complex_norm.
Example C04_complex_norm_ex : [(0, 1); (ln 3, 2)] <> ([] : list C) /\ Rsum (fun z => Cmod (Cexp z)) [(0, 1); (ln 3, 2)] = 4.
Proof.
  split; [discriminate|]. rewrite !Rsum_cons, Rsum_nil, !Cmod_exp. unfold Re. cbn [fst]. rewrite exp_0, exp_ln by lra. lra.
Qed.

(** C04: the real version. *)
Theorem C04_real_version : forall v : list R, v <> [] -> log_fsum_exp v = Ok (ln (Rsum exp v)).
Proof. exact log_fsum_exp_ok. Qed.
Print Assumptions C04_real_version.
Example C04_real_version_ex : [0; ln 3] <> ([] : list R) /\ log_fsum_exp [0; ln 3] = Ok (ln 4).
Proof.
  split; [discriminate|]. rewrite C04_real_version by discriminate. f_equal. f_equal. rewrite !Rsum_cons, Rsum_nil, exp_0, exp_ln by lra. lra.
Qed.

(** C04: the shift by the largest real part keeps the argument of the logarithm in [1, length]. *)
Theorem C04_shift_bounds : forall v : list C, v <> [] ->
  exists m, In m (map Re v) /\ (forall y, In y (map Re v) -> y <= m) /\
    complex_norm_log_fsum_exp v = Ok (ln (Rsum (fun z => exp (Re z - m)) v) + m) /\
    1 <= Rsum (fun z => exp (Re z - m)) v <= INR (length v).
Proof. exact complex_norm_shift. Qed.
Print Assumptions C04_shift_bounds.
Example C04_shift_bounds_ex : [(5, 1); (-700, 2); (5, 0)] <> ([] : list C). Proof. discriminate. Qed.

(** C04: applied to 2 log psi it is the logarithm of the squared norm and it normalises the probabilities. *)
Theorem C04_normalises : forall v : list C, v <> [] ->
  exists l, complex_norm_log_fsum_exp (map (fun z => Cscale 2 z) v) = Ok l /\
    exp l = Rsum (fun z => Cnorm2 (Cexp z)) v /\
    Rsum (fun z => exp (2 * Re z - l)) v = 1.
Proof. exact normalised_by_norm. Qed.
Print Assumptions C04_normalises.
Example C04_ex : [(1, 2); (3, -1)] <> ([] : list C). Proof. discriminate. Qed.
Theorem C04_empty_raises : forall v : list C, complex_norm_log_fsum_exp v = Err ValueError <-> v = [].
Proof. intros [|z v]; split; intros H; [reflexivity|reflexivity|discriminate H|discriminate H]. Qed.
Print Assumptions C04_empty_raises.
Example C04_empty_ex : complex_norm_log_fsum_exp [] = Err ValueError /\ log_fsum_exp [] = Err ValueError. Proof. split; reflexivity. Qed.

(** C60: after normalisation with norm type p the p-th powers of the (moduli of the) exponentials sum to 1. *)
Theorem C60_real_sums_to_one : forall (p : R) (x : list R), p <> 0 -> x <> [] ->
  Rsum (fun y => exp (p * y)) (normalize_real p x) = 1.
Proof. exact normalize_real_sum. Qed.
Print Assumptions C60_real_sums_to_one.
Example C60_real_ex : 1 <> 0 /\ [0; 1; 2] <> ([] : list R).
Proof. split; [lra | discriminate]. Qed.

Theorem C60_complex_sums_to_one : forall (p : R) (x : list C), p <> 0 -> x <> [] ->
  Rsum (fun z => exp (p * Re z)) (normalize_complex p x) = 1.
Proof. exact normalize_complex_sum. Qed.
Print Assumptions C60_complex_sums_to_one.
Example C60_complex_sums_ex : -3 <> 0 /\ [(0, 1); (1, 5); (-2, 0)] <> ([] : list C). Proof. split; [lra|discriminate]. Qed.

Theorem C60_amplitudes_normalised : forall x : list C, x <> [] ->
  Rsum (fun z => Cnorm2 (Cexp z)) (normalize_complex 2 x) = 1.
Proof. exact normalize_complex_born. Qed.
Print Assumptions C60_amplitudes_normalised.
Example C60_complex_ex : 2 <> 0 /\ [(0, 1); (1, 5)] <> ([] : list C).
Proof. split; [lra | discriminate]. Qed.

(** C60: normalisation subtracts one real number from the whole row, so ratios and phases are kept. *)
Theorem C60_real_shift : forall (p : R) (x : list R), exists c, normalize_real p x = map (fun v => v - c) x.
Proof. exact normalize_real_shift. Qed.
Print Assumptions C60_real_shift.
Theorem C60_complex_shift : forall (p : R) (x : list C),
  exists c : R, normalize_complex p x = map (fun z => (z - RtoC c)%C) x.
Proof. exact normalize_complex_shift. Qed.
Print Assumptions C60_complex_shift.

(** A non trivial autoregressive network on the 2 x 1 grid used in the examples below: site 1 copies site 0. *)
Definition example_net (s : list Z) (i : nat) : list C :=
  match i with
  | O => [(0, 0); (1, 2)]
  | _ => if (nth 0 s 0 =? 1)%Z then [(0, 1); (3, 0)] else [(2, 0); (0, 0)]
  end.
Lemma example_net_autoregressive : autoregressive 2 [0; 1]%nat example_net.
Proof.
  intros before i after E s t _ _ H.
  destruct before as [|a [|b before]]; simpl in E; injection E; intros; subst.
  - reflexivity.
  - unfold example_net. rewrite (H 0%nat); [reflexivity | now left].
  - destruct before; discriminate.
Qed.
Lemma example_net_rows s i : length (example_net s i) = 2%nat.
Proof. unfold example_net. destruct i; [reflexivity|]. destruct (nth 0 s 0 =? 1)%Z; reflexivity. Qed.

(** C18: the squared moduli of the amplitudes of an auto normalised autoregressive machine sum to one. *)
Theorem C18_normalised : forall (n : nat) (order : list nat) (net : list Z -> nat -> list C),
  visits_once n order -> autoregressive n order net -> (forall s i, length (net s i) = 2%nat) ->
  Rsum (fun s => Cnorm2 (Cexp (predictions net s))) (spin_configs n) = 1.
Proof. exact normalised_wave_function. Qed.
Print Assumptions C18_normalised.
Example C18_ex : visits_once 2 [0; 1]%nat /\ autoregressive 2 [0; 1]%nat example_net /\
  (forall s i, length (example_net s i) = 2%nat).
Proof.
  split; [|split; [exact example_net_autoregressive | exact example_net_rows]].
  split.
  - repeat constructor; simpl; intuition lia.
  - intros i. simpl. lia.
Qed.

(** C18 for purely probabilistic models with any number of categories. *)
Theorem C18_normalised_probability : forall (K n : nat) (order : list nat) (net : list Z -> nat -> list R),
  (0 < K)%nat -> visits_once n order -> autoregressive n order net -> (forall s i, length (net s i) = K) ->
  Rsum (fun s => exp (log_prob K net s)) (strings (map Z.of_nat (seq 0 K)) n) = 1.
Proof. exact normalised_probability. Qed.
Print Assumptions C18_normalised_probability.
Example C18_prob_ex : (0 < 3)%nat /\ visits_once 2 [1; 0]%nat /\
  autoregressive 2 [1; 0]%nat (fun s i => match i with O => [IZR (nth 1 s 0%Z); 0; 2] | _ => [1; 2; 3] end) /\
  length (strings (map Z.of_nat (seq 0 3)) 2) = 9%nat.
Proof.
  split; [lia|]. split; [split; [repeat constructor; simpl; intuition lia | intros i; simpl; lia]|].
  split; [|reflexivity].
  intros before i after E s t _ _ H.
  destruct before as [|a [|b before]]; simpl in E; injection E; intros; subst.
  - reflexivity.
  - rewrite (H 1%nat); [reflexivity | now left].
  - destruct before; discriminate.
Qed.

(** C13: with the +-1 encoding, the random numbers (one per site, uniform in [0,1)) for which the sampler
    returns s form a box of volume |psi(s)|^2. *)
Theorem C13_samples_born_probability :
  forall (shape : list nat) (order : list (list nat)) (net : list Z -> nat -> list C),
  (length shape = 1 \/ length shape = 2)%nat -> ordering_of shape order ->
  autoregressive (volume shape) (map (row_major shape) order) net ->
  (forall s i, length (net s i) = 2%nat) ->
  exists box : list Z -> nat -> R * R,
    (forall s i, 0 <= fst (box s i) /\ snd (box s i) <= 1) /\
    (forall u s, length u = volume shape /\ Forall (fun x => 0 <= x < 1) u ->
       In s (spin_configs (volume shape)) ->
       (sampler_next shape false (conditional_log_probs net) order u = Ok s <->
        forall i, (i < volume shape)%nat -> inside (nth i u 0) (box s i))) /\
    (forall s, In s (spin_configs (volume shape)) ->
       Rprod (fun i => len (box s i)) (seq 0 (volume shape)) = Cnorm2 (Cexp (predictions net s))).
Proof. exact sampler_boxes. Qed.
Print Assumptions C13_samples_born_probability.
Lemma example_ordering : ordering_of [2]%nat [[0]; [1]]%nat.
Proof. exact (raster_ordering [2%nat]). Qed.
Example C13_ex : ordering_of [2]%nat [[0]; [1]]%nat /\
  autoregressive (volume [2]%nat) (map (row_major [2]%nat) [[0]; [1]]%nat) example_net.
Proof. split; [exact example_ordering | exact example_net_autoregressive]. Qed.

(** C13: the sampler always returns a configuration of +-1 spins. *)
Theorem C13_always_returns :
  forall (shape : list nat) (order : list (list nat)) (net : list Z -> nat -> list C) (u : list R),
  (length shape = 1 \/ length shape = 2)%nat -> ordering_of shape order ->
  autoregressive (volume shape) (map (row_major shape) order) net ->
  exists s, sampler_next shape false (conditional_log_probs net) order u = Ok s /\
    In s (spin_configs (volume shape)).
Proof. exact sampler_total. Qed.
Print Assumptions C13_always_returns.
Example C13_always_returns_ex : (length [2%nat] = 1 \/ length [2%nat] = 2)%nat /\ ordering_of [2]%nat [[0]; [1]]%nat /\
  autoregressive (volume [2]%nat) (map (row_major [2]%nat) [[0]; [1]]%nat) example_net.
Proof. split; [now left|]. split; [exact example_ordering|exact example_net_autoregressive]. Qed.

(** C13: with the 0/1 encoding the value 1 is drawn with the probability of category 0 ... *)
Theorem C13_zero_base_draws_category_0 :
  forall (shape : list nat) (order : list (list nat)) (net : list Z -> nat -> list R),
  (length shape = 1 \/ length shape = 2)%nat -> ordering_of shape order ->
  autoregressive (volume shape) (map (row_major shape) order) net ->
  (forall s i, length (net s i) = 2%nat) ->
  forall u s, length u = volume shape /\ Forall (fun x => 0 <= x < 1) u ->
    In s (strings [0%Z; 1%Z] (volume shape)) ->
    (sampler_next shape true (fun s i => normalize_real 1 (net s i)) order u = Ok s <->
     forall i, (i < volume shape)%nat ->
       let p_category_0 := exp (nth 0 (normalize_real 1 (net s i)) 0) in
       nth i s 0%Z = 1%Z <-> nth i u 0 < p_category_0).
Proof. exact sampler_zero_base. Qed.
Print Assumptions C13_zero_base_draws_category_0.
Example C13_zero_base_ex : ordering_of [2]%nat [[0]; [1]]%nat /\
  autoregressive (volume [2]%nat) (map (row_major [2]%nat) [[0]; [1]]%nat) (fun s i => map Re (example_net s i)) /\
  (forall s i, length (map Re (example_net s i)) = 2%nat) /\
  (length [/ 2; / 3] = volume [2]%nat /\ Forall (fun x => 0 <= x < 1) [/ 2; / 3]) /\ In [1; 0]%Z (strings [0%Z; 1%Z] (volume [2]%nat)).
Proof.
  split; [exact example_ordering|]. split.
  { intros before i after E s t Hs Ht H. f_equal. exact (example_net_autoregressive before i after E s t Hs Ht H). }
  split; [intros s i; rewrite map_length; apply example_net_rows|]. split; [|cbn; tauto]. split; [reflexivity|]. repeat constructor; lra.
Qed.

(** ... so the samples do not follow the model: a model that gives the value 1 the probability 3/4 is sampled
    with 1/4. *)
Theorem C13_zero_base_refuted :
  exists net : list Z -> nat -> list R,
    (forall s i, length (net s i) = 2%nat) /\ autoregressive 1 [0%nat] net /\
    exp (log_prob 2 net [1%Z]) = 3 / 4 /\
    (forall u, 0 <= u < 1 ->
       (sampler_next [1%nat] true (fun s i => normalize_real 1 (net s i)) [[0%nat]] [u] = Ok [1%Z] <->
        u < 1 / 4)).
Proof. exact zero_base_wrong. Qed.
Print Assumptions C13_zero_base_refuted.

(** C13: three dimensional inputs raise. *)
Theorem C13_three_dimensions_raise : forall a b c d e f zb lp u rest,
  sampler_next [a; b; c] zb lp ([d; e; f] :: rest) u = Err GenericException.
Proof. exact sampler_three_dims. Qed.
Print Assumptions C13_three_dimensions_raise.

(** C13: an ordering that leaves the array raises. *)
Theorem C13_outside_raises : forall (shape : list nat) zb lp u order, (length shape = 1 \/ length shape = 2)%nat -> Forall (fun l => length l = length shape) order ->
  (exists l, In l order /\ ~ in_shape shape l) -> sampler_next shape zb lp order u = Err IndexError.
Proof.
  intros shape zb lp u order HL F [l [I N]]. unfold sampler_next. generalize (repeat 0%Z (fold_right Nat.mul 1%nat shape)). induction F as [|i order Li F IH]; intros b; [destruct I|].
  cbn [sample_loop]. destruct (site_index shape i) as [h|e] eqn:E; cbn [bind].
  - apply IH. destruct I as [->|I]; [|exact I]. destruct N. unfold in_shape.
    destruct HL as [HL|HL]; rewrite HL in Li.
    + destruct shape as [|n [|]]; try discriminate. destruct l as [|a [|]]; try discriminate. cbn [site_index] in E. destruct (Nat.ltb_spec a n); [|discriminate]. constructor; [assumption|constructor].
    + destruct shape as [|n [|m [|]]]; try discriminate. destruct l as [|a [|c [|]]]; try discriminate. cbn [site_index] in E. destruct (Nat.ltb_spec a n); [|discriminate]. destruct (Nat.ltb_spec c m); [|discriminate].
      constructor; [assumption|constructor; [assumption|constructor]].
  - f_equal. destruct HL as [HL|HL]; rewrite HL in Li.
    + destruct shape as [|n [|]]; try discriminate. destruct i as [|a [|]]; try discriminate. cbn [site_index] in E. destruct (a <? n)%nat; congruence.
    + destruct shape as [|n [|m [|]]]; try discriminate. destruct i as [|a [|c [|]]]; try discriminate. cbn [site_index] in E. destruct ((a <? n)%nat && (c <? m)%nat)%bool; congruence.
Qed.
Print Assumptions C13_outside_raises.
Example C13_outside_raises_ex : Forall (fun l => length l = length [2%nat; 3%nat]) [[0; 1]; [2; 0]]%nat /\ ~ in_shape [2; 3]%nat [2; 0]%nat.
Proof. split; [repeat constructor|]. intros H. inversion H as [|x y l l' Hlt]. lia. Qed.
