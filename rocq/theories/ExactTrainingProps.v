(** Property C88 (optimization/exact_variational.py, optimizers/accumulate_gradient_optimizer.py, optimization/loss.py as put together by
    examples/basic_autoregressive_exact_gradient.py and examples/j1j2_2d_exact_4.py). *)
From Coq Require Import List ZArith Reals Bool Arith Lia Lra.
From Verif Require Import Base Cplx Vec LatticeSpec IsingModel TrainingModel TrainingSpec AutoregressiveSpec ObservableModel ObservableSpec ExactModel ExactSpec
  ExactProofs ExactGradientProofs ExactGeneratorProofs ExactFinalProofs ExactOperatorProofs ExactCallbackModel PipelineSpec PipelineProofs
  ExactTrainingModel ExactTrainingSpec ExactTrainingProofs.
Import ListNotations.
Local Open Scope R_scope.

(** The steps of one cycle make one update of the wrapped optimizer, with the gradient of the energy at the weights before the cycle, divided by the batch
    size when gradients are summed and by the number of configurations when they are averaged. Inside a cycle the weights rest, and the arrays are filled once per cycle. *)
Theorem C88_updates : forall (S : Type) n H op batch past e log_psi sample_gradient d (O : optimizer S) (sum : bool) s0,
  (n <= 31)%nat -> operator_represents n H op -> hermitian n H -> good_batch_size n batch -> built n op batch past e ->
  length (weights O s0) = d -> (forall w x, length w = d -> length (sample_gradient w x) = d) ->
  (forall s g, length (weights O s) = d -> length g = d -> length (weights O (apply_gradients O s g)) = d) ->
  (forall w, length w = d -> loss_gradient n d log_psi sample_gradient w) ->
  exists grad, (forall w, length w = d -> energy_gradient_is n d H log_psi w (grad w)) /\
    forall k r, (r < num_of_batch_until_full_cycle e)%nat -> exists e' i A,
      train_exactly O sum d log_psi sample_gradient e s0 (k * num_of_batch_until_full_cycle e + r) = Ok ((e', i), A) /\
      inner A = gradient_steps O (if sum then / INR (Nat.min batch (2 ^ n)) else / INR (2 ^ n)) grad s0 k /\
      updates e' = (k + (if r =? 0 then 0 else 1) + length past)%nat.
Proof.
  intros S n H op batch past e lp sg d O sum s0 Hn HO HH HB HE Lw Ls Lk HG. exists (full_gradient n d H lp sg).
  split; [intros w L; apply full_gradient_is; [exact HH|exact (HG w L)]|]. intros k r Hr.
  destruct (training_ok n H op batch past e lp sg d O sum s0 Hn HO HH HB HE Lw Ls Lk k r Hr) as (e' & i & A & X & I & U).
  destruct (built_good n H op batch past e Hn HO HB HE) as (G & Eb & Eu). exists e', i, A. split; [exact X|]. split; [|rewrite U, Eu; reflexivity].
  rewrite I. f_equal. rewrite <- Eb. rewrite <- (scale_value sum n (batch_size e)).
  - unfold num_of_batch_until_full_cycle, num_of_states. rewrite (ge_n _ _ _ G). reflexivity.
  - apply (ge_batch _ _ _ G).
  - apply divides; [apply (ge_batch _ _ _ G)|apply (ge_div _ _ _ G)].
Qed.
Print Assumptions C88_updates.

(** One spin in a transverse field; the machine is psi(s) = exp(i t s) with one weight t. *)
Definition one_spin (w : list R) (s : list Z) : C := (0, nth 0 w 0 * IZR (nth 0 s 0%Z)).
Definition one_spin_gradient (w : list R) (x : list Z * C) : list R := [- (2 * IZR (nth 0 (fst x) 0%Z) * Im (snd x))].
Lemma one_spin_line w : length w = 1%nat -> line_gradient 1 1 one_spin one_spin_gradient w.
Proof.
  intros L. destruct w as [|a [|b w]]; try discriminate. split; [reflexivity|]. intros v s t Lv Hs.
  destruct v as [|x [|y v]]; try discriminate.
  apply (limit_ext (fun h => - (2 * (a * IZR (nth 0 s 0%Z)) * Im t) + (- (2 * IZR (nth 0 s 0%Z) * Im t) * x) * h)).
  { intros h. unfold one_spin, vadd, vscale, Cmult, Re, Im. cbn [map map2 nth fst snd]. ring. }
  unfold inner_product, one_spin_gradient. cbn [seq]. rewrite Rsum_cons, Rsum_nil. cbn [nth fst snd].
  eapply limit_value; [|apply derivable_pt_lim_plus; [apply derivable_pt_lim_const|apply (derivable_pt_lim_scal id); apply derivable_pt_lim_id]].
  ring.
Qed.
Lemma one_spin_operator : operator_represents 1 (ising_matrix 1 1 false [1%nat]) (ising_operator 1 1 false [1%nat]).
Proof. apply (ising_operator_represents 1 1 false [1%nat]). left. exists 1%nat. split; [reflexivity|]. right. split; [reflexivity|lia]. Qed.
Lemma one_spin_built : exists e, built 1 (ising_operator 1 1 false [1%nat]) 1 [] e /\ num_of_batch_until_full_cycle e = 2%nat.
Proof.
  destruct (built_ok 1 _ _ 1 [] ltac:(lia) one_spin_operator) as (e & B & _). { split; [lia|reflexivity]. }
  exists e. split; [exact B|]. destruct (built_good 1 _ _ 1 [] e ltac:(lia) one_spin_operator ltac:(split; [lia|reflexivity]) B) as (G & Eb & _).
  unfold num_of_batch_until_full_cycle, num_of_states. rewrite (ge_n _ _ _ G), Eb. reflexivity.
Qed.

Example C88_updates_ex : operator_represents 1 (ising_matrix 1 1 false [1%nat]) (ising_operator 1 1 false [1%nat]) /\ hermitian 1 (ising_matrix 1 1 false [1%nat]) /\
  good_batch_size 1 1 /\ (exists e, built 1 (ising_operator 1 1 false [1%nat]) 1 [] e /\ num_of_batch_until_full_cycle e = 2%nat) /\
  (forall w x, length w = 1%nat -> length (one_spin_gradient w x) = 1%nat) /\
  (forall lr s g, length (weights (sgd lr) s) = 1%nat -> length g = 1%nat -> length (weights (sgd lr) (apply_gradients (sgd lr) s g)) = 1%nat) /\ (forall w, length w = 1%nat -> loss_gradient 1 1 one_spin one_spin_gradient w).
Proof.
  split; [exact one_spin_operator|]. split; [exact (ising_matrix_hermitian 1 1 false [1%nat])|]. split; [split; [lia|reflexivity]|]. split; [exact one_spin_built|].
  split; [reflexivity|]. split; [intros lr; apply sgd_keeps|]. intros w L. apply line_loss; [exact L|now apply one_spin_line].
Qed.

(** With stochastic gradient descent and a learning rate small enough, one cycle lowers the energy, unless the gradient is zero; then the weights stay. *)
Theorem C88_descent : forall n H op batch past e log_psi sample_gradient d (sum : bool) w,
  (n <= 31)%nat -> operator_represents n H op -> hermitian n H -> good_batch_size n batch -> built n op batch past e ->
  length w = d -> (forall v x, length v = d -> length (sample_gradient v x) = d) -> line_gradient n d log_psi sample_gradient w ->
  let after lr k := match train_exactly (sgd lr) sum d log_psi sample_gradient e w (k * num_of_batch_until_full_cycle e) with Ok (_, A) => Some (inner A) | Err _ => None end in
  exists G, energy_gradient_is n d H log_psi w G /\
    (G = vzero d -> forall lr, after lr 1%nat = Some w) /\
    (G <> vzero d -> exists delta, 0 < delta /\ forall lr, 0 < lr < delta ->
       exists w', after lr 1%nat = Some w' /\ energy_at n H log_psi w' < energy_at n H log_psi w).
Proof.
  intros n H op batch past e lp sg d sum w Hn HO HH HB HE Lw Ls HG after. set (G := full_gradient n d H lp sg w).
  assert (LG : length G = d) by (apply full_gradient_length; auto).
  destruct (built_good n H op batch past e Hn HO HB HE) as (GE & Eb & Eu).
  pose proof (divides n (batch_size e) (ge_batch _ _ _ GE) (ge_div _ _ _ GE)) as Hm.
  assert (PB : 0 < INR (batch_size e)) by (apply lt_0_INR, (ge_batch _ _ _ GE)).
  assert (Hf : (0 < num_of_batch_until_full_cycle e)%nat).
  { unfold num_of_batch_until_full_cycle, num_of_states. rewrite (ge_n _ _ _ GE). destruct (2 ^ n / batch_size e)%nat; [|lia].
    rewrite Nat.mul_0_l in Hm. exfalso. exact (Nat.pow_nonzero 2 n ltac:(lia) Hm). }
  set (c := step_scale sum (num_of_batch_until_full_cycle e) / INR (batch_size e)).
  assert (PC : 0 < c).
  { unfold c, Rdiv. apply Rmult_lt_0_compat; [|now apply Rinv_0_lt_compat]. unfold step_scale. destruct sum; [lra|]. apply Rinv_0_lt_compat, lt_0_INR, Hf. }
  assert (AF : forall lr, after lr 1%nat = Some (vadd w (vscale (- (lr * c)) G))).
  { intros lr. destruct (training_ok n H op batch past e lp sg d (sgd lr) sum w Hn HO HH HB HE Lw Ls (sgd_keeps lr d) 1 0 Hf) as (e' & i & A & X & I & _).
    unfold after. rewrite Nat.add_0_r in X. rewrite X. f_equal. rewrite I, sgd_step. reflexivity. }
  exists G. split; [apply full_gradient_is; [exact HH|apply line_loss; [exact Lw|exact HG]]|]. split.
  - intros Z lr. rewrite AF, Z. f_equal. apply vec_ext; [apply vadd_length; rewrite vscale_length, vzero_length; exact Lw|].
    intros i. rewrite nth_vadd, nth_vscale, nth_vzero by (rewrite vscale_length, vzero_length; exact Lw). lra.
  - intros NZ. assert (PS : 0 < square_norm d G).
    { destruct (Rle_lt_or_eq_dec _ _ (inner_nonneg d G)) as [P|P]; [exact P|]. exfalso. apply NZ, square_norm_zero; [exact LG|now symmetry]. }
    pose proof (line_slope n d H lp sg w (vscale (- 1) G) HH HG Lw ltac:(now rewrite vscale_length)) as D. fold G in D. rewrite inner_scale in D.
    fold (square_norm d G) in D. destruct (negative_slope _ _ D ltac:(lra)) as (dl & P & Q). exists (dl / c). split; [apply Rdiv_lt_0_compat; assumption|].
    intros lr [L0 L1]. exists (vadd w (vscale (- (lr * c)) G)). split; [apply AF|].
    assert (B : 0 < lr * c < dl). { split; [apply Rmult_lt_0_compat; assumption|]. apply (Rmult_lt_compat_r c) in L1; [|exact PC]. unfold Rdiv in L1. rewrite Rmult_assoc, Rinv_l, Rmult_1_r in L1 by lra. exact L1. }
    specialize (Q (lr * c) B). cbv beta in Q. rewrite (along_zero w _ d Lw) in Q by (now rewrite vscale_length). rewrite vscale_scale in Q.
    replace (lr * c * - 1) with (- (lr * c)) in Q by ring. exact Q.
Qed.
Print Assumptions C88_descent.
Example C88_descent_ex : line_gradient 1 1 one_spin one_spin_gradient [/ 2] /\ (exists e, built 1 (ising_operator 1 1 false [1%nat]) 1 [] e /\ num_of_batch_until_full_cycle e = 2%nat).
Proof. split; [now apply one_spin_line|exact one_spin_built]. Qed.

(** When the energy is smooth and the learning rate below twice the batch size over the smoothness constant, every cycle lowers the energy by a definite amount,
    the energies converge, the gradients tend to zero, and the smallest gradient of K cycles is of order 1 / K. *)
Theorem C88_convergence : forall n H op batch past e log_psi sample_gradient d (sum : bool) w0 grad L lr,
  (n <= 31)%nat -> operator_represents n H op -> hermitian n H -> good_batch_size n batch -> built n op batch past e ->
  length w0 = d -> (forall v x, length v = d -> length (sample_gradient v x) = d) -> (forall w, length w = d -> loss_gradient n d log_psi sample_gradient w) ->
  (forall w, length w = d -> energy_gradient_is n d H log_psi w (grad w)) -> smooth n d H log_psi grad L ->
  let a := lr * (if sum then / INR (Nat.min batch (2 ^ n)) else / INR (2 ^ n)) in
  0 < a -> a * L < 2 ->
  exists ws : nat -> list R, ws 0%nat = w0 /\
    (forall k, exists g A, train_exactly (sgd lr) sum d log_psi sample_gradient e w0 (k * num_of_batch_until_full_cycle e) = Ok (g, A) /\ inner A = ws k) /\
    (forall k, energy_at n H log_psi (ws (S k)) <= energy_at n H log_psi (ws k) - a * (1 - a * L / 2) * square_norm d (grad (ws k))) /\
    (exists limit, Un_cv (fun k => energy_at n H log_psi (ws k)) limit) /\
    Un_cv (fun k => square_norm d (grad (ws k))) 0 /\
    (forall m K, (forall w, m <= energy_at n H log_psi w) -> (0 < K)%nat ->
       exists k, (k < K)%nat /\ square_norm d (grad (ws k)) <= (energy_at n H log_psi w0 - m) / (a * (1 - a * L / 2) * INR K)).
Proof.
  intros n H op batch past e lp sg d sum w0 grad L lr Hn HO HH HB HE Lw Ls HG HD HS a Pa Pl.
  destruct (built_good n H op batch past e Hn HO HB HE) as (GE & Eb & _).
  set (c := if sum then / INR (Nat.min batch (2 ^ n)) else / INR (2 ^ n)) in *.
  assert (LG : forall w, length w = d -> length (grad w) = d) by (intros w Q; exact (proj1 (HD w Q))).
  exists (gradient_steps (sgd lr) c grad w0). split; [reflexivity|].
  assert (ST : forall k, energy_at n H lp (gradient_steps (sgd lr) c grad w0 (S k)) <=
     energy_at n H lp (gradient_steps (sgd lr) c grad w0 k) - a * (1 - a * L / 2) * square_norm d (grad (gradient_steps (sgd lr) c grad w0 k))).
  { intros k. rewrite sgd_step. fold a. apply descent_step; [exact HS|now apply sgd_length|apply LG; now apply sgd_length]. }
  split; [|split; [exact ST|]].
  - intros k. destruct (C88_updates (list R) n H op batch past e lp sg d (sgd lr) sum w0 Hn HO HH HB HE Lw Ls (sgd_keeps lr d) HG) as (g' & Dg & U).
    assert (Hf : (0 < num_of_batch_until_full_cycle e)%nat).
    { unfold num_of_batch_until_full_cycle, num_of_states. rewrite (ge_n _ _ _ GE).
      pose proof (divides n (batch_size e) (ge_batch _ _ _ GE) (ge_div _ _ _ GE)) as Hm. destruct (2 ^ n / batch_size e)%nat; [|lia].
      rewrite Nat.mul_0_l in Hm. exfalso. exact (Nat.pow_nonzero 2 n ltac:(lia) Hm). }
    destruct (U k 0%nat Hf) as (e' & i & A & X & I & _). rewrite Nat.add_0_r in X. exists (e', i), A. split; [exact X|]. rewrite I.
    apply (sgd_ext lr _ g' grad w0 d k Lw); [intros v Lv; exact (proj1 (Dg v Lv))|]. intros v Lv. exact (gradient_unique n d H lp v _ _ (Dg v Lv) (HD v Lv)).
  - assert (PC : 0 < a * (1 - a * L / 2)) by (apply Rmult_lt_0_compat; lra).
    destruct (bounded_below n H) as [m0 B0].
    destruct (sequence_limits (fun k => energy_at n H lp (gradient_steps (sgd lr) c grad w0 k)) (fun k => square_norm d (grad (gradient_steps (sgd lr) c grad w0 k)))
      (a * (1 - a * L / 2)) m0 PC (fun k => inner_nonneg d _) (fun k => B0 _) ST) as (C1 & C2 & _).
    split; [exact C1|]. split; [exact C2|]. intros m K HM HK.
    destruct (sequence_limits (fun k => energy_at n H lp (gradient_steps (sgd lr) c grad w0 k)) (fun k => square_norm d (grad (gradient_steps (sgd lr) c grad w0 k)))
      (a * (1 - a * L / 2)) m PC (fun k => inner_nonneg d _) (fun k => HM _) ST) as (_ & _ & C3). exact (C3 K HK).
Qed.
Print Assumptions C88_convergence.

(** The energy of the one spin machine is - cos(2 t); it is smooth with L = 8. *)
Lemma one_spin_energy w : energy_at 1 (ising_matrix 1 1 false [1%nat]) one_spin w = - cos (2 * nth 0 w 0).
Proof.
  unfold energy_at, expectation, norm2, braket, apply_matrix. change (spin_configs 1) with [[1%Z]; [(-1)%Z]].
  set (t := nth 0 w 0).
  assert (E1 : one_spin w [1%Z] = (0, t)) by (unfold one_spin; cbn [nth]; fold t; f_equal; ring).
  assert (E2 : one_spin w [(-1)%Z] = (0, - t)) by (unfold one_spin; cbn [nth]; fold t; f_equal; ring).
  assert (H11 : ising_matrix 1 1 false [1%nat] [1%Z] [1%Z] = C0). { unfold ising_matrix, ising_element. cbn. unfold RtoC, C0. f_equal. ring. }
  assert (H22 : ising_matrix 1 1 false [1%nat] [(-1)%Z] [(-1)%Z] = C0). { unfold ising_matrix, ising_element. cbn. unfold RtoC, C0. f_equal. ring. }
  assert (H12 : ising_matrix 1 1 false [1%nat] [1%Z] [(-1)%Z] = RtoC (- (1))). { unfold ising_matrix, ising_element. cbn. unfold RtoC. f_equal; ring. }
  assert (H21 : ising_matrix 1 1 false [1%nat] [(-1)%Z] [1%Z] = RtoC (- (1))). { unfold ising_matrix, ising_element. cbn. unfold RtoC. f_equal; ring. }
  unfold Csum, Rsum. cbn [fold_right map]. rewrite H11, H22, H12, H21. unfold born. rewrite E1, E2.
  unfold Cexp, Cscale, Cplus, Cmult, Cconj, Cnorm2, RtoC, C0, Re, Im. cbn [fst snd]. rewrite exp_0, cos_neg, sin_neg.
  rewrite cos_2a. pose proof (sin2_cos2 t) as P. unfold Rsqr in P. set (x := cos t) in *. set (y := sin t) in *.
  match goal with |- / ?D * _ = _ => replace D with 2 by nra end. lra.
Qed.
Lemma sin_lipschitz x c : Rabs (sin (x + c) - sin x) <= Rabs c.
Proof.
  assert (P : forall x y, x < y -> Rabs (sin y - sin x) <= y - x).
  { intros u v Huv. destruct (MVT_cor2 sin cos u v Huv) as (z & E & _). { intros; apply derivable_pt_lim_sin. }
    rewrite E, Rabs_mult, (Rabs_right (v - u)) by lra. pose proof (COS_bound z). assert (Rabs (cos z) <= 1) by (apply Rabs_le; lra).
    pose proof (Rmult_le_compat_r (v - u) _ _ ltac:(lra) H0). lra. }
  destruct (Rtotal_order c 0) as [Hc|[->|Hc]].
  - specialize (P (x + c) x ltac:(lra)). rewrite Rabs_minus_sym. rewrite (Rabs_left c) by lra. lra.
  - rewrite Rplus_0_r, Rminus_diag_eq, !Rabs_R0 by reflexivity. lra.
  - specialize (P x (x + c) ltac:(lra)). rewrite (Rabs_right c) by lra. lra.
Qed.
Lemma cos_quadratic x y : - cos (x + y) <= - cos x + sin x * y + y * y.
Proof.
  assert (P : exists c, Rabs c <= Rabs y /\ cos (x + y) - cos x = - sin (x + c) * y).
  { destruct (Rtotal_order y 0) as [Hy|[->|Hy]].
    - destruct (MVT_cor2 cos (fun u => - sin u) (x + y) x ltac:(lra)) as (z & E & Hz). { intros; apply derivable_pt_lim_cos. }
      exists (z - x). split; [rewrite !Rabs_left by lra; lra|]. replace (x + (z - x)) with z by ring. lra.
    - exists 0. split; [lra|]. rewrite !Rplus_0_r. ring.
    - destruct (MVT_cor2 cos (fun u => - sin u) x (x + y) ltac:(lra)) as (z & E & Hz). { intros; apply derivable_pt_lim_cos. }
      exists (z - x). split; [rewrite !Rabs_right by lra; lra|]. replace (x + (z - x)) with z by ring. rewrite E. f_equal. ring. }
  destruct P as (c & Hc & E). assert (Q : (sin (x + c) - sin x) * y <= y * y).
  { eapply Rle_trans; [apply Rle_abs|]. rewrite Rabs_mult. replace (y * y) with (Rabs y * Rabs y).
    - apply Rmult_le_compat_r; [apply Rabs_pos|]. eapply Rle_trans; [apply sin_lipschitz|exact Hc].
    - rewrite <- Rabs_mult. apply Rabs_right. pose proof (Rle_0_sqr y). unfold Rsqr in *. lra. }
  lra.
Qed.

Example C88_convergence_ex : let grad := fun w => [2 * sin (2 * nth 0 w 0)] in
  (forall w, length w = 1%nat -> energy_gradient_is 1 1 (ising_matrix 1 1 false [1%nat]) one_spin w (grad w)) /\
  smooth 1 1 (ising_matrix 1 1 false [1%nat]) one_spin grad 8 /\ 0 < / 10 * / INR (Nat.min 1 (2 ^ 1)) /\ / 10 * / INR (Nat.min 1 (2 ^ 1)) * 8 < 2.
Proof.
  intros grad. split; [|split].
  - intros w L. split; [reflexivity|]. intros i Hi. destruct i as [|i]; [|lia]. destruct w as [|t [|b w]]; try discriminate.
    apply (limit_ext (fun v => - cos (2 * v))). { intros v. rewrite one_spin_energy. reflexivity. }
    cbn [nth grad]. apply (limit_ext (opp_fct (comp cos (fun v => 2 * v)))); [reflexivity|].
    replace (2 * sin (2 * t)) with (- (- sin (2 * t) * (2 * 1))) by ring. apply derivable_pt_lim_opp.
    apply derivable_pt_lim_comp; [apply (derivable_pt_lim_scal id 2); apply derivable_pt_lim_id|apply derivable_pt_lim_cos].
  - intros w v Lw Lv. rewrite !one_spin_energy. destruct w as [|t [|b w]]; try discriminate. destruct v as [|x [|b v]]; try discriminate.
    unfold square_norm, inner_product, grad, vadd. cbn [seq map2 nth]. rewrite !Rsum_cons, !Rsum_nil. cbn [nth].
    pose proof (cos_quadratic (2 * t) (2 * x)) as P. replace (2 * t + 2 * x) with (2 * (t + x)) in P by ring. lra.
  - change (Nat.min 1 (2 ^ 1)) with 1%nat. cbn [INR]. split; lra.
Qed.
