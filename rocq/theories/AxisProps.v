(** Property C70: layers that normalise along an axis, as layers and location by location. *)
From Coq Require Import List ZArith Arith Bool Reals Lra Lia Psatz.
From Verif Require Import Base Cplx OrderingModel OrderingSpec TensorModel TopologyModel AutoregressiveModel AxisModel AxisSpec AxisProofs.
Import ListNotations.
Local Open Scope nat_scope.

(** C70: LayerNormalization subtracts the mean of the features of a location, divides by the root of their variance plus epsilon, and applies gamma and beta. *)
Theorem C70_layer_normalization : forall (eps : R) (gamma beta : list R) (x : tensor R) (batch n : nat) (sp : list nat), tshape x = batch :: sp ++ [n] ->
  exists y, layer_normalization eps gamma beta x = Ok y /\ tshape y = tshape x /\
    forall b l c, b < batch -> in_shape sp l -> c < n ->
      feature y b l c = ((feature x b l c - average n (feature x b l)) / sqrt (variance n (feature x b l) + eps) * nth c gamma 0 + nth c beta 0)%R.
Proof. intros. now apply (layer_normalization_value eps gamma beta x batch sp n). Qed.
Print Assumptions C70_layer_normalization.
Definition ramp : tensor R := {| tshape := [2; 3; 2]; tval := fun l => INR (nth 1 l 0 + 2 * nth 2 l 0) |}.
Example C70_layer_normalization_ex : tshape ramp = 2 :: [3] ++ [2] /\ average 2 (feature ramp 1 [2]) = 3%R /\ variance 2 (feature ramp 1 [2]) = 1%R.
Proof.
  split; [reflexivity|]. unfold variance, average, feature, ramp. cbn [tval app nth seq Rsum fold_right map INR Nat.add Nat.mul]. split.
  - unfold Rsum. cbn. field. - unfold Rsum. cbn. field.
Qed.

(** C70: with the initial gamma and beta the features of every location have mean zero and mean square v / (v + epsilon). *)
Theorem C70_standardised : forall (eps : R) (x y : tensor R) (batch n : nat) (sp : list nat) (b : nat) (l : loc), tshape x = batch :: sp ++ [n] -> (0 < eps)%R -> 0 < n ->
  b < batch -> in_shape sp l -> layer_normalization eps (initial_gamma (tshape x)) (initial_beta (tshape x)) x = Ok y ->
  average n (feature y b l) = 0%R /\
  average n (fun c => feature y b l c ^ 2)%R = (variance n (feature x b l) / (variance n (feature x b l) + eps))%R.
Proof.
  intros eps x y batch n sp b l E He Hn Hb Hl EY.
  destruct (C70_layer_normalization eps (initial_gamma (tshape x)) (initial_beta (tshape x)) x batch n sp E) as (y' & E1 & _ & E3).
  rewrite E1 in EY. injection EY as ->.
  set (f := feature x b l) in *. set (m := average n f) in *. set (v := variance n f) in *.
  assert (Hv : (0 <= v)%R).
  { unfold v, variance, average. apply Rmult_le_pos; [apply Rsum_nonneg; intros; apply pow2_ge_0|]. left. apply Rinv_0_lt_compat. apply lt_0_INR. lia. }
  assert (Hn0 : INR n <> 0%R) by (apply not_0_INR; lia).
  assert (Hs : (sqrt (v + eps) * sqrt (v + eps) = v + eps)%R) by (apply sqrt_sqrt; lra).
  assert (Hs0 : (0 < sqrt (v + eps))%R) by (apply sqrt_lt_R0; lra).
  assert (V : forall c, c < n -> feature y b l c = ((f c - m) / sqrt (v + eps))%R).
  { intros c Hc. rewrite E3 by assumption. unfold initial_gamma, initial_beta. rewrite E, shape_last.
    rewrite (nth_indep _ 0%R 1%R) by now rewrite repeat_length. rewrite !nth_repeat. fold f m v. ring. }
  assert (M : (Rsum (fun c => f c - m) (seq 0 n) = 0)%R).
  { rewrite Rsum_minus, Rsum_const, seq_length. unfold m, average. field. exact Hn0. }
  split.
  - unfold average. rewrite (Rsum_ext _ (fun c => / sqrt (v + eps) * (f c - m))%R).
    + rewrite Rsum_scal, M. unfold Rdiv. ring.
    + intros c Hc. apply in_seq in Hc. rewrite V by lia. unfold Rdiv. ring.
  - unfold average at 1. rewrite (Rsum_ext _ (fun c => / (v + eps) * (f c - m) ^ 2)%R).
    + rewrite Rsum_scal. assert (Q : Rsum (fun c => (f c - m) ^ 2)%R (seq 0 n) = (v * INR n)%R).
      { unfold v, variance. unfold average at 1. fold m. field. exact Hn0. }
      rewrite Q. field. split; [lra|exact Hn0].
    + intros c Hc. apply in_seq in Hc. rewrite V by lia. transitivity (/ (sqrt (v + eps) * sqrt (v + eps)) * (f c - m) ^ 2)%R; [field; lra|now rewrite Hs].
Qed.
Print Assumptions C70_standardised.
Example C70_standardised_ex : exists y, layer_normalization 1 (initial_gamma (tshape ramp)) (initial_beta (tshape ramp)) ramp = Ok y /\ in_shape [3] [2].
Proof. eexists. split; [reflexivity|]. repeat constructor. Qed.

(** C70: a number added to all features of a location does not change the result, whatever it is there. *)
Theorem C70_shift : forall (eps : R) (gamma beta : list R) (x x' y y' : tensor R) (batch n : nat) (sp : list nat) (b : nat) (l : loc) (t : R),
  tshape x = batch :: sp ++ [n] -> tshape x' = tshape x -> b < batch -> in_shape sp l ->
  (forall c, c < n -> feature x' b l c = (feature x b l c + t)%R) ->
  layer_normalization eps gamma beta x = Ok y -> layer_normalization eps gamma beta x' = Ok y' ->
  forall c, c < n -> feature y' b l c = feature y b l c.
Proof.
  intros eps gamma beta x x' y y' batch n sp b l t E E' Hb Hl H EY EY' c Hc.
  destruct (C70_layer_normalization eps gamma beta x batch n sp E) as (z & E1 & _ & E2). rewrite E1 in EY. injection EY as ->.
  rewrite E in E'. destruct (C70_layer_normalization eps gamma beta x' batch n sp E') as (z & E3 & _ & E4). rewrite E3 in EY'. injection EY' as ->.
  rewrite E2, E4, H by assumption.
  assert (Hn0 : INR n <> 0%R) by (apply not_0_INR; lia).
  assert (M : average n (feature x' b l) = (average n (feature x b l) + t)%R).
  { unfold average. rewrite (Rsum_ext _ (fun c => feature x b l c + t)%R) by (intros a Ha; apply in_seq in Ha; apply H; lia).
    rewrite Rsum_plus, Rsum_const, seq_length. field. exact Hn0. }
  assert (Va : variance n (feature x' b l) = variance n (feature x b l)).
  { unfold variance. unfold average at 1 3. f_equal. apply Rsum_ext. intros a Ha. apply in_seq in Ha. rewrite M, H by lia. ring. }
  rewrite M, Va. f_equal. f_equal. f_equal. ring.
Qed.
Print Assumptions C70_shift.
Example C70_shift_ex : forall c, feature {| tshape := [2; 3; 2]; tval := fun l => (tval ramp l + INR (nth 1 l 0%nat))%R |} 1 [2] c = Rplus (feature ramp 1 [2] c) 2.
Proof. intros c. unfold feature. cbn [tval app nth INR]. f_equal. Qed.

(** C70: no feature is further from beta than gamma times the root of the number of features, however large the input. *)
Theorem C70_bounded : forall (eps : R) (gamma beta : list R) (x y : tensor R) (batch n : nat) (sp : list nat) (b : nat) (l : loc) (c : nat),
  tshape x = batch :: sp ++ [n] -> (0 < eps)%R -> b < batch -> in_shape sp l -> c < n -> layer_normalization eps gamma beta x = Ok y ->
  ((feature y b l c - nth c beta 0) ^ 2 <= nth c gamma 0 ^ 2 * INR n)%R.
Proof.
  intros eps gamma beta x y batch n sp b l c E He Hb Hl Hc EY.
  destruct (C70_layer_normalization eps gamma beta x batch n sp E) as (y' & E1 & _ & E3).
  rewrite E1 in EY. injection EY as ->. rewrite E3 by assumption.
  set (f := feature x b l) in *. set (m := average n f) in *. set (v := variance n f) in *.
  assert (Hn : (0 < INR n)%R) by (apply lt_0_INR; lia).
  assert (Hf : ((f c - m) ^ 2 <= v * INR n)%R).
  { unfold v, variance, average. fold m. unfold Rdiv. rewrite Rmult_assoc, Rinv_l, Rmult_1_r by lra.
    apply (Rsum_in_le (fun a => (f a - m) ^ 2)%R); [intros; apply pow2_ge_0|]. apply in_seq. lia. }
  assert (Hv : (0 <= v)%R).
  { unfold v, variance, average. apply Rmult_le_pos; [apply Rsum_nonneg; intros; apply pow2_ge_0|]. left. now apply Rinv_0_lt_compat. }
  assert (Hs : (sqrt (v + eps) * sqrt (v + eps) = v + eps)%R) by (apply sqrt_sqrt; lra).
  assert (Hs0 : (0 < sqrt (v + eps))%R) by (apply sqrt_lt_R0; lra).
  replace (((f c - m) / sqrt (v + eps) * nth c gamma 0 + nth c beta 0 - nth c beta 0) ^ 2)%R
    with (nth c gamma 0 ^ 2 * ((f c - m) ^ 2 / (v + eps)))%R by (transitivity (nth c gamma 0 ^ 2 * ((f c - m) ^ 2 / (sqrt (v + eps) * sqrt (v + eps))))%R; [now rewrite Hs|field; lra]).
  apply Rmult_le_compat_l; [apply pow2_ge_0|].
  apply (Rmult_le_reg_r (v + eps)); [lra|]. unfold Rdiv. rewrite Rmult_assoc, Rinv_l, Rmult_1_r by lra. nra.
Qed.
Print Assumptions C70_bounded.
Example C70_bounded_ex : exists y, layer_normalization 1 [3; 4]%R [0; 1]%R ramp = Ok y /\ in_shape [3] [2] /\ 1 < 2.
Proof. eexists. split; [reflexivity|]. split; [repeat constructor|lia]. Qed.

(** C70: the fast sampler, which calls the layer on the value at one location, gets the entries of the layer there. *)
Theorem C70_layer_normalization_location : forall (eps : R) (gamma beta : list R) (x y : tensor R) (batch n : nat) (sp : list nat) (l : loc),
  tshape x = batch :: sp ++ [n] -> in_shape sp l -> layer_normalization eps gamma beta x = Ok y ->
  exists y', layer_normalization eps gamma beta (at_location x l) = Ok y' /\ same_tensor (at_location y l) y'.
Proof.
  intros eps gamma beta x y batch n sp l E Hl EY.
  destruct (C70_layer_normalization eps gamma beta x batch n sp E) as (z & E1 & E2 & E3). rewrite E1 in EY. injection EY as ->.
  destruct (C70_layer_normalization eps gamma beta (at_location x l) batch n [] (location_shape x batch sp n l E)) as (y' & F1 & F2 & F3).
  exists y'. split; [exact F1|]. apply (same_location y y' batch n l).
  - rewrite F2. apply (location_shape x batch sp n l E).
  - now rewrite E2, E. - now rewrite E2, E, shape_last.
  - intros b c Hb Hc. rewrite E3, F3 by (auto; constructor). reflexivity.
Qed.
Print Assumptions C70_layer_normalization_location.
Example C70_layer_normalization_location_ex : in_shape [3] [2] /\ tshape (at_location ramp [2]) = [2; 2] /\ feature (at_location ramp [2]) 1 [] 1 = INR 4.
Proof. split; [repeat constructor|]. split; reflexivity. Qed.

Theorem C70_log_space_location : forall (p : R) (x y : tensor R) (batch n : nat) (sp : list nat) (l : loc),
  tshape x = batch :: sp ++ [n] -> in_shape sp l -> normalize_in_log_space p x = Ok y ->
  exists y', normalize_in_log_space p (at_location x l) = Ok y' /\ same_tensor (at_location y l) y'.
Proof.
  intros p x y batch n sp l E Hl EY.
  destruct (normalize_value p x batch sp n E) as (z & E1 & E2 & E3). rewrite E1 in EY. injection EY as ->.
  destruct (normalize_value p (at_location x l) batch [] n (location_shape x batch sp n l E)) as (y' & F1 & F2 & F3).
  exists y'. split; [exact F1|]. apply (same_location y y' batch n l).
  - rewrite F2. apply (location_shape x batch sp n l E).
  - now rewrite E2, E. - now rewrite E2, E, shape_last.
  - intros b c Hb Hc. rewrite E3, F3 by (auto; constructor). reflexivity.
Qed.
Print Assumptions C70_log_space_location.
Example C70_log_space_location_ex : exists y, normalize_in_log_space 2 ramp = Ok y /\ in_shape [3] [1].
Proof. eexists. split; [reflexivity|]. repeat constructor. Qed.

(** C70: the same for Softmax along the features, given as -1 or by its number. *)
Theorem C70_softmax_location : forall (axis : Z) (x y : tensor R) (batch n : nat) (sp : list nat) (l : loc),
  tshape x = batch :: sp ++ [n] -> axis = (-1)%Z \/ axis = (Z.of_nat (length sp) + 1)%Z -> in_shape sp l -> keras_softmax axis x = Ok y ->
  exists y', keras_softmax axis (at_location x l) = Ok y' /\ same_tensor (at_location y l) y'.
Proof.
  intros axis x y batch n sp l E HA Hl EY.
  destruct (softmax_last_value axis x batch sp n E ltac:(tauto)) as (z & E1 & E2 & E3). rewrite E1 in EY. injection EY as ->.
  destruct (softmax_last_value axis (at_location x l) batch [] n (location_shape x batch sp n l E) ltac:(tauto)) as (y' & F1 & F2 & F3).
  exists y'. split; [exact F1|]. apply (same_location y y' batch n l).
  - rewrite F2. apply (location_shape x batch sp n l E).
  - now rewrite E2, E. - now rewrite E2, E, shape_last.
  - intros b c Hb Hc. rewrite E3, F3 by (auto; constructor). reflexivity.
Qed.
Print Assumptions C70_softmax_location.

(** The Softmax layer refuses tensors without features. *)
Theorem C70_softmax_rank : forall (axis : Z) (x : tensor R), length (tshape x) < 2 -> keras_softmax axis x = Err ValueError.
Proof. intros axis x. unfold keras_softmax. destruct (length (tshape x)) as [|[|n]]; try reflexivity. lia. Qed.
Print Assumptions C70_softmax_rank.
Example C70_softmax_rank_ex : length (tshape {| tshape := [4]; tval := fun _ => 1%R |}) < 2. Proof. cbn. lia. Qed.
Example C70_softmax_location_ex : exists y, keras_softmax 2 ramp = Ok y /\ (2 = Z.of_nat (length [3]) + 1)%Z.
Proof. eexists. split; [reflexivity|]. reflexivity. Qed.

(** C70: elementwise layers (activations, casts, LeakyReLU, ELU, ThresholdedReLU, lambdas without reductions). *)
Theorem C70_elementwise_location : forall (V W : Type) (f : V -> W) (x : tensor V) (l : loc),
  same_tensor (at_location (elementwise f x) l) (elementwise f (at_location x l)).
Proof.
  intros V W f x l. split; [reflexivity|]. intros i Hi. unfold at_location, elementwise. cbn [tshape tval]. destruct i as [|b [|c [|]]]; reflexivity.
Qed.
Print Assumptions C70_elementwise_location.
Example C70_elementwise_location_ex : tval (at_location (elementwise (fun v => v + 1)%R ramp) [2]) [1; 1] = (INR 4 + 1)%R.
Proof. reflexivity. Qed.

(** C70 fails for Softmax along a spatial axis, for every shape: the layer normalises over locations, the fast sampler over features. Moreover the output at a
    location depends on inputs elsewhere, although the topology reports only that location. *)
Theorem C70_softmax_spatial_refuted : forall (batch n k : nat) (sp : list nat), 0 < batch -> 0 < n -> k < length sp -> 2 <= nth k sp 0 -> Forall (fun m => 0 < m) sp ->
  exists (x x' y y' z : tensor R) (l : loc), tshape x = batch :: sp ++ [n] /\ tshape x' = tshape x /\ in_shape sp l /\
    let axis := (Z.of_nat k + 1)%Z in
    keras_softmax axis x = Ok y /\ keras_softmax axis x' = Ok y' /\ keras_softmax axis (at_location x l) = Ok z /\
    ~ same_tensor (at_location y l) z /\
    one_to_one_dependencies [sp] l = Ok [{| input_index := 0; spatial_location := l |}] /\
    same_tensor (at_location x l) (at_location x' l) /\ feature y 0 l 0 <> feature y' 0 l 0.
Proof.
  intros batch n k sp Hb Hn Hk Hm HF. set (m := nth k sp 0) in *. assert (HnR : (1 <= INR n)%R) by (apply (le_INR 1); lia).
  assert (HmR : (2 <= INR m)%R) by (apply (le_INR 2) in Hm; simpl in Hm; lra).
  set (l := repeat 0 (length sp)). assert (Hl : in_shape sp l).
  { unfold l. clear -HF. induction HF; cbn; [constructor|]. constructor; auto. }
  set (x := spike batch sp n k (INR n)). set (x' := spike batch sp n k (INR n + 1)).
  destruct (spike_softmax batch sp n k (INR n) Hk ltac:(lra)) as (y & Y1 & Y2 & Y3).
  destruct (spike_softmax batch sp n k (INR n + 1) Hk ltac:(lra)) as (y' & Y1' & Y2' & Y3').
  destruct (softmax_last_value (Z.of_nat k + 1) (at_location x l) batch [] n (location_shape x batch sp n l eq_refl) ltac:(auto)) as (z & Z1 & Z2 & Z3).
  assert (Hl0 : nth k l 0 = 0) by (unfold l; apply nth_repeat).
  assert (Vy : feature y 0 l 0 = (/ (1 + (INR m - 1) * INR n))%R) by (apply Y3; auto).
  assert (Vy' : feature y' 0 l 0 = (/ (1 + (INR m - 1) * (INR n + 1)))%R) by (apply Y3'; auto).
  assert (P : (0 < 1 + (INR m - 1) * INR n)%R) by nra.
  assert (X0 : forall t b c, feature (spike batch sp n k t) b l c = 0%R).
  { intros t b c. unfold feature, spike. cbn [tval nth]. rewrite app_nth1 by (unfold l; rewrite repeat_length; exact Hk). now rewrite Hl0. }
  exists x, x', y, y', z, l. split; [reflexivity|]. split; [reflexivity|]. split; [exact Hl|]. cbv zeta. split; [exact Y1|]. split; [exact Y1'|]. split; [exact Z1|].
  split; [|split; [|split]].
  - intros [_ Q]. specialize (Q [0; 0]). unfold at_location in Q. cbn [tshape tval] in Q. rewrite Y2 in Q. cbn [hd tshape spike] in Q.
    rewrite shape_last in Q. specialize (Q ltac:(repeat constructor; assumption)). change (tval y (0 :: l ++ [0])) with (feature y 0 l 0) in Q.
    change (tval z [0; 0]) with (feature z 0 [] 0) in Q. rewrite Vy, (Z3 0 [] 0) in Q by (auto; constructor).
    assert (S0 : Rsum (fun i => exp (feature (at_location x l) 0 [] i)) (seq 0 n) = INR n).
    { rewrite (Rsum_ext _ (fun _ => 1%R)); [rewrite Rsum_const, seq_length; ring|]. intros c _.
      change (feature (at_location x l) 0 [] c) with (feature x 0 l c). unfold x. rewrite X0. apply exp_0. }
    rewrite S0 in Q. change (feature (at_location x l) 0 [] 0) with (feature x 0 l 0) in Q. unfold x in Q. rewrite X0, exp_0 in Q.
    apply (f_equal Rinv) in Q. rewrite Rinv_inv in Q. unfold Rdiv in Q. rewrite Rmult_1_l, Rinv_inv in Q. nra.
  - unfold one_to_one_dependencies. cbn [one_to_one_from]. rewrite (broadcast_in_shape sp l Hl). reflexivity.
  - split; [reflexivity|]. intros i Hi. unfold at_location in Hi. cbn [tshape] in Hi. unfold at_location. cbn [tval].
    inversion Hi as [|b B i' s' Hb' Hi' Q1 Q2]; subst. inversion Hi' as [|c N i'' s'' Hc Hi'' Q1 Q2]; subst. inversion Hi''; subst.
    change (feature x b l c = feature x' b l c). unfold x, x'. now rewrite !X0.
  - rewrite Vy, Vy'. intros Q. apply (f_equal Rinv) in Q. rewrite !Rinv_inv in Q. nra.
Qed.
Print Assumptions C70_softmax_spatial_refuted.
Example C70_softmax_spatial_ex : 1 < length [4; 5] /\ 2 <= nth 1 [4; 5] 0 /\ Forall (fun m => 0 < m) [4; 5].
Proof. split; [cbn; lia|]. split; [cbn; lia|]. repeat constructor. Qed.
