(** C83: restricted Boltzmann machines with stochastic reconfiguration, from the weights to the energy. *)
From Coq Require Import List ZArith Reals Lra Lia Bool Arith.
From Verif Require Import Base OrderingModel OrderingSpec TopologyProofs Cplx IsingModel ObservableModel AutoregressiveSpec ObservableSpec ExactSpec ExactGradientProofs ComplexModel ComplexSpec ComplexProofs SymmetryModel SymmetrySpec
  ReconfigurationModel ReconfigurationSpec ReconfigurationVecProofs ReconfigurationProofs ReconfigurationProps SolverModel SolverSpec SolverProofs SolverProps RbmModel RbmSpec RbmCalculusProofs RbmMachineProofs.
From Verif Require ExactProofs ExactTrainingProofs ReconfigurationCgProofs.
Import ListNotations.
Local Open Scope nat_scope.

(** The weights: the shapes that the layers create, and tensors of these shapes are weights of the machine. A symmetric machine without dimensions is refused. *)
Theorem C83_shapes : forall m, input_dims m <> [] ->
  let n := volume (input_dims m) in
  machine_build m = Ok (if symmetric m then [input_dims m ++ [alpha m]; [alpha m]; [1; 1]] else [[n; alpha m * n]; [alpha m * n]; [n; 1]]) /\
  forall ts shapes, machine_build m = Ok shapes -> map fst ts = shapes -> Forall (@ReconfigurationSpec.well_shaped C) ts -> fits m (map snd ts) /\ length (concat (map snd ts)) = entries shapes.
Proof.
  intros m D n.
  assert (E : machine_build m = Ok (if symmetric m then [input_dims m ++ [alpha m]; [alpha m]; [1; 1]] else [[n; alpha m * n]; [alpha m * n]; [n; 1]])).
  { unfold machine_build. destruct (symmetric m).
    - unfold translation_dense_build. cbn [length tl map]. rewrite map_length. destruct (input_dims m) as [|d ds] eqn:ED; [contradiction|]. cbn [length Nat.leb negb].
      assert (M : forall l : list nat, mapM (fun s : option nat => match s with None => Err TypeError | Some d => Ok d end) (map Some l) = Ok l) by (induction l as [|a l IH]; [reflexivity|]; cbn [map mapM bind]; rewrite IH; reflexivity).
      rewrite M. reflexivity.
    - unfold dense_build, flatten_shape. cbn [length Nat.eqb negb last hd tl bind].
      assert (M : forall l : list nat, fold_right (fun s p => match s, p with Some a, Some b => Some (a * b) | _, _ => None end) (Some 1) (map Some l) = Some (volume l)).
      { induction l as [|a l IH]; [reflexivity|]. cbn [map fold_right]. rewrite IH. reflexivity. }
      rewrite M. reflexivity. }
  split; [exact E|]. intros ts shapes B S W. rewrite E in B. injection B as <-.
  assert (L : map (@length C) (map snd ts) = map (fold_right Nat.mul 1) (map fst ts)).
  { rewrite !map_map. apply map_ext_in. intros t I. rewrite Forall_forall in W. exact (W t I). }
  assert (V1 : fold_right Nat.mul 1 (input_dims m ++ [alpha m]) = n * alpha m).
  { unfold n. generalize (input_dims m) as l. induction l as [|a l IH]; [cbn; lia|]. cbn [app fold_right]. rewrite IH. change (volume (a :: l)) with (a * volume l). lia. }
  split.
  - unfold fits. fold n. rewrite L, S. destruct (symmetric m); cbn [map]; rewrite ?V1; cbn [fold_right]; rewrite ?Nat.mul_1_r; reflexivity.
  - rewrite <- S. clear -L. revert L. induction ts as [|t ts IH]; [reflexivity|]. cbn [map concat entries fold_right]. intros L. injection L as L1 L2. rewrite app_length, L1. unfold entries in IH. rewrite IH by exact L2. reflexivity.
Qed.
Print Assumptions C83_shapes.
Example C83_shapes_ex : machine_build {| symmetric := true; input_dims := [4; 3]; alpha := 2 |} = Ok [[4; 3; 2]; [2]; [1; 1]] /\
  machine_build {| symmetric := false; input_dims := [4; 3]; alpha := 2 |} = Ok [[12; 24]; [24]; [12; 1]] /\ machine_build {| symmetric := true; input_dims := []; alpha := 2 |} = Err AssertionError.
Proof. repeat split. Qed.

(** What the layers refuse: the wrong number of dimensions, and sizes that are not known. *)
Theorem C83_refused : forall (units : nat) (use_bias multiply : bool) (shape : list (option nat)),
  (length shape <> 2 -> dense_build units use_bias multiply shape = Err AssertionError) /\
  (length shape = 2 -> last shape None = None -> dense_build units use_bias multiply shape = Err TypeError) /\
  (length shape < 2 -> translation_dense_build units use_bias shape = Err AssertionError) /\
  (2 <= length shape -> In None (tl shape) -> translation_dense_build units use_bias shape = Err TypeError) /\
  forall m, symmetric m = true -> input_dims m = [] -> machine_build m = Err AssertionError.
Proof.
  intros units ub mul shape. split; [|split; [|split; [|split]]].
  - intros N. unfold dense_build. destruct (Nat.eqb_spec (length shape) 2); [congruence|reflexivity].
  - intros E L. unfold dense_build. rewrite E, L. reflexivity.
  - intros L. unfold translation_dense_build. destruct (Nat.leb_spec 2 (length shape)); [lia|reflexivity].
  - intros L I. unfold translation_dense_build. destruct (Nat.leb_spec 2 (length shape)); [|lia]. cbn [negb].
    assert (M : mapM (fun s : option nat => match s with None => Err TypeError | Some d => Ok d end) (tl shape) = Err TypeError); [|now rewrite M].
    revert I. generalize (tl shape). induction l as [|[d|] l IH]; [intros []| |intros _; reflexivity]. intros [E|I]; [discriminate|]. cbn [mapM bind]. rewrite (IH I). reflexivity.
  - intros m S D. unfold machine_build. rewrite S, D. reflexivity.
Qed.
Print Assumptions C83_refused.
Example C83_refused_ex : dense_build 3 true true [None; Some 4; Some 2] = Err AssertionError /\ dense_build 3 true true [Some 5; None] = Err TypeError /\
  translation_dense_build 3 true [None] = Err AssertionError /\ translation_dense_build 3 true [None; Some 4; None] = Err TypeError.
Proof. repeat split. Qed.

(** The amplitude is the textbook formula: exp (sum of a_v s_v) times the product of cosh of what enters the hidden units. *)
Theorem C83_amplitude : forall m ws s, fits m ws -> 0 < volume (input_dims m) -> length s = volume (input_dims m) -> nonzero m ws s ->
  Cexp (prediction m ws s) = (Cexp (visible m ws s) * Cprod (map Ccosh (hidden m ws s)))%C.
Proof.
  intros m ws s F V L NZ. rewrite prediction_formula by assumption. rewrite Cexp_plus. f_equal. unfold nonzero in NZ. revert NZ. generalize (hidden m ws s) as l.
  induction l as [|z l IH]; intros NZ; [unfold Csum; cbn; unfold Cexp, C0, Re, Im; cbn [fst snd]; rewrite exp_0, cos_0, sin_0; unfold C1; f_equal; ring|].
  rewrite Csum_cons, Cexp_plus, IH by (intros; apply NZ; now right). cbn [map Cprod fold_right]. f_equal. apply exp_lncosh, NZ. now left.
Qed.
Print Assumptions C83_amplitude.
Example C83_amplitude_ex : let m := {| symmetric := true; input_dims := [2]; alpha := 1 |} in let ws := [[C0; C0]; [C0]; [C1]] in fits m ws /\ 0 < volume (input_dims m) /\ nonzero m ws [1; -1]%Z.
Proof.
  split; [reflexivity|]. split; [cbn; lia|]. intros z I. assert (E : z = C0).
  { cbn in I. destruct I as [<-|[<-|[]]]; unfold Csum; cbn; unfold spin; csolve. }
  subst z. unfold Ccosh, Cexp, Cscale, C0, Cplus, Copp, Re, Im. cbn [fst snd]. rewrite !Ropp_0, exp_0, cos_0, sin_0. intros H. injection H as H _. lra.
Qed.

(** What the function of the jacobian returns, made complex by the optimizer, are the logarithmic derivatives of the amplitudes with respect to the complex weights, in the order of the
    weights; where a hidden unit has a vanishing cosh there is no logarithm to differentiate. *)
Theorem C83_jacobian : forall m ws samples, fits m ws -> 0 < volume (input_dims m) -> 0 < length samples ->
  Forall (fun s => length s = volume (input_dims m)) samples -> Forall (nonzero m ws) samples ->
  exists O, get_predictions_jacobian (Some (predictions_jacobian m ws samples)) = Ok O /\ logarithmic_derivatives m ws samples O.
Proof.
  intros m ws samples F V P FS NZ. eexists. split; [apply jacobian_value; assumption|]. apply derivatives_logarithmic; assumption.
Qed.
Print Assumptions C83_jacobian.
Example C83_jacobian_ex : let m := {| symmetric := false; input_dims := [1]; alpha := 1 |} in
  fits m [[C0]; [C1]; [C0]] /\ nonzero m [[C0]; [C1]; [C0]] [1%Z].
Proof.
  split; [reflexivity|]. intros z I. assert (E : z = C1) by (cbn in I; destruct I as [<-|[]]; unfold Csum; cbn; unfold spin; csolve).
  subst z. unfold Ccosh, Cexp, Cscale, C1, Cplus, Copp, Re, Im. cbn [fst snd]. rewrite !Ropp_0, cos_0, sin_0. intros H. injection H as H _. pose proof (exp_pos 1). pose proof (exp_pos (- (1))). lra.
Qed.

(** One step of training with any of the options that do not take other derivatives (compute_jvp_instead_of_full_jacobian, use_energy_loss): the complex weights move by minus the learning
    rate times the solution of the equations of stochastic reconfiguration, (covariance of the logarithmic derivatives plus shift) x = covariance with the local energies; exactly with the
    direct solvers, up to the tolerance with the iterative solver. *)
Theorem C83_step : forall fuel o lr m reals imags samples local shapes,
  input_dims m <> [] -> 0 < volume (input_dims m) -> 0 < alpha m -> machine_build m = Ok shapes ->
  map fst reals = shapes -> map fst imags = shapes -> Forall ReconfigurationSpec.well_shaped reals -> Forall ReconfigurationSpec.well_shaped imags ->
  0 < length samples -> Forall (fun s => length s = volume (input_dims m)) samples -> Forall (nonzero m (weight_values reals imags)) samples -> length local = length samples ->
  Im (diag_shift o) = 0%R -> (0 < Re (diag_shift o))%R -> use_energy_loss o = false -> iterative_solver o && compute_jvp_instead_of_full_jacobian o = false ->
  let n := entries shapes in
  (iterative_solver o = true -> n < fuel /\ (0 <= conjugate_gradient_tol o)%R /\ forall i, iterative_solver_max_iterations o = Some i -> n <= i) ->
  exists O x y reals' imags',
    logarithmic_derivatives m (weight_values reals imags) samples O /\
    reconfiguration_step fuel o lr m reals imags samples local = Ok (Some (reals', imags')) /\
    (forall k, nth k (concat (weight_values reals' imags')) C0 = (nth k (concat (weight_values reals imags)) C0 - RtoC lr * nth k x C0)%C) /\
    let force := fun k => covariance (length samples) (fun i => nth k (nth i O []) C0) (fun i => nth i local C0) in
    solves n (shifted_covariance O (diag_shift o)) force (fun k => nth k y C0) /\
    (iterative_solver o = false -> x = y) /\
    (iterative_solver o = true -> (Re (diag_shift o) * norm n (csub y x) <= conjugate_gradient_tol o * norm n (map force (seq 0 n)))%R).
Proof.
  intros fuel o lr m reals imags samples local shapes D V A B SR SI WR WI P FS NZ LL IS PS UE J n HI.
  assert (WV : forall rs is, map2 (fun r i => complex_weight_value (snd r, snd i)) rs is = weight_values rs is).
  { unfold weight_values, complex_weight_value. intros rs. induction rs as [|r rs IH]; intros [|i is]; try reflexivity. cbn [map2]. rewrite IH. f_equal. cbn [fst snd]. generalize (snd r) as a, (snd i) as b.
    induction a as [|u a IHa]; intros [|w b]; try reflexivity. cbn [map map2]. rewrite IHa. f_equal. f_equal. ring. }
  assert (ZI : exists ts, map snd ts = weight_values reals imags /\ map fst ts = shapes /\ Forall (@ReconfigurationSpec.well_shaped C) ts).
  { exists (map2 (fun r i => (fst r, map2 (fun a b => (a, - b)%R) (snd r) (snd i))) reals imags). rewrite <- SR. rewrite <- SR in SI. clear -SI WR WI. revert imags SI WI. induction reals as [|r rs IH]; intros [|i is] E WI; try discriminate.
    - split; [reflexivity|]. split; [reflexivity|constructor].
    - cbn [map] in E. injection E as E1 E2. inversion WR as [|? ? W1 W2]; subst. inversion WI as [|? ? W3 W4]; subst. destruct (IH W2 is E2 W4) as (I1 & I2 & I3).
      cbn [map2 map fst snd]. split; [unfold weight_values in *; cbn [map2]; f_equal; exact I1|]. split; [f_equal; exact I2|]. constructor; [|exact I3].
      unfold ReconfigurationSpec.well_shaped in *. cbn [fst snd]. rewrite Base.map2_length. rewrite E1 in W3. rewrite W1, W3. apply Nat.min_id. }
  destruct ZI as (ts & T1 & T2 & T3). destruct (C83_shapes m D) as [BE FE]. destruct (FE ts shapes B T2 T3) as [F LN]. rewrite T1 in F, LN. set (ws := weight_values reals imags) in *.
  set (O := map (fun s => map Cconj (concat (weight_gradients m ws s))) samples).
  assert (LD : logarithmic_derivatives m ws samples O) by (apply derivatives_logarithmic; assumption). pose proof LD as [LO RO].
  assert (FO : Forall (fun row => length row = n) O).
  { apply Forall_forall. intros row I. apply (In_nth _ _ []) in I as (i & I & <-). rewrite LO in I. rewrite (proj1 (RO i I)). exact LN. }
  set (targets := loss_coefficients (length samples) (Cmean local) local).
  assert (LT : length targets = length O) by (unfold targets, loss_coefficients; rewrite LO; rewrite ?map_length; exact LL).
  assert (N1 : n <> 1).
  { unfold n. rewrite <- LN. rewrite (proj2 (fits_concat m ws F)). cbv zeta. destruct (symmetric m); nia. }
  destruct (C82_direction o (map fst reals) (Some (predictions_jacobian m ws samples)) O (repeat C0 n) targets fuel) as (x & y & E & LX & LY & SY & X1 & X2).
  - rewrite SR. exact FO.
  - rewrite LO. exact P.
  - exact IS.
  - exact PS.
  - rewrite SR. apply repeat_length.
  - exact LT.
  - intros Q. rewrite J in Q. discriminate.
  - intros _. apply jacobian_value; assumption.
  - intros Q. rewrite SR. split; [exact N1|]. apply HI, Q.
  - rewrite SR in E, LX, LY, SY, X2. fold n in LX, LY, SY, X2.
    assert (E' : direction fuel o true shapes (Some (predictions_jacobian m ws samples)) O [] targets = Ok (Some x)).
    { etransitivity; [|exact E]. unfold direction. rewrite UE. reflexivity. }
    destruct (C48_update lr reals imags x) as (reals' & imags' & EU & UU); [now rewrite SR, SI|exact WR|exact WI|rewrite SR; exact LX|].
    exists O, x, y, reals', imags'. split; [exact LD|]. split; [unfold reconfiguration_step; cbv zeta; rewrite WV; fold ws; rewrite SR; fold targets; fold O; rewrite E'; cbn [bind]; rewrite EU; reflexivity|].
    split; [intros k; rewrite <- (WV reals' imags'), (UU k), WV; reflexivity|]. intros force. rewrite UE in SY, X2.
    assert (FC : forall k, k < n -> nth k (energy_grad n O targets) C0 = force k).
    { intros k K. unfold targets. rewrite <- LO. rewrite C48_gradient_is_covariance; [unfold force; rewrite <- LO; reflexivity|exact FO|rewrite LO; exact P|rewrite LO; exact LL|exact K]. }
    split; [intros k K; rewrite (SY k K); apply FC, K|]. split; [exact X1|]. intros Q. specialize (X2 Q).
    replace (map force (seq 0 n)) with (energy_grad n O targets); [exact X2|].
    apply (list_ext_nth C0).
    + rewrite map_length, seq_length. unfold energy_grad. apply adjoint_length.
    + intros k K. unfold energy_grad in K. rewrite adjoint_length in K. rewrite (nth_map_seq force) by exact K. apply FC, K.
Qed.
Print Assumptions C83_step.
Example C83_step_ex : let m := {| symmetric := true; input_dims := [2]; alpha := 1 |} in
  machine_build m = Ok [[2; 1]; [1]; [1; 1]] /\ weight_values [([2; 1], [0; 0]%R); ([1], [0%R]); ([1; 1], [1%R])] [([2; 1], [0; 0]%R); ([1], [0%R]); ([1; 1], [0%R])] = [[(0, -0); (0, -0)]; [(0, -0)]; [(1, -0)]]%R.
Proof. split; reflexivity. Qed.

(** The exact energy: when the weights move, it changes with twice the real part of the product of the velocities with the conjugate force, the covariance of the logarithmic derivatives
    and the local energy. *)
Theorem C83_energy_slope : forall m H path x vs (O : list Z -> list C), let n := volume (input_dims m) in
  ExactSpec.hermitian n H -> (forall s, In s (spin_configs n) -> logarithmic_derivatives m (path x) [s] [O s]) -> weights_move path x vs ->
  derivable_pt_lim (fun t => Re (expectation n H (prediction m (path t)))) x
    (2 * Re (row_times (length (concat (path x))) (fun k => Cconj (exact_force n H (prediction m (path x)) O k)) (fun k => nth k (concat vs) C0)))%R.
Proof.
  intros m H path x vs O n HH LD M.
  pose proof (energy_slope n H (fun t => prediction m (path t)) (fun s => row_times (length (concat (path x))) (fun k => nth k (O s) C0) (fun k => nth k (concat vs) C0)) x HH) as E.
  unfold exact_force. rewrite <- (slope_of_covariance n H (prediction m (path x)) (length (concat (path x))) (fun s k => nth k (O s) C0)). apply E.
  intros s Hs. destruct (LD s Hs) as [_ R]. destruct (R 0 (Nat.lt_0_succ 0)) as [_ R']. exact (R' path x vs eq_refl M).
Qed.
Print Assumptions C83_energy_slope.
Example C83_energy_slope_ex : let m := {| symmetric := false; input_dims := [1]; alpha := 1 |} in let path := fun t : R => [[C0]; [RtoC (1 + t)]; [C0]] in
  ExactSpec.hermitian 1 (fun a b => if list_eq_dec Z.eq_dec a b then C0 else C1) /\ weights_move path 0 [[C0]; [C1]; [C0]] /\
  exists O, forall s, In s (spin_configs 1) -> logarithmic_derivatives m (path 0%R) [s] [O s].
Proof.
  intros m path. split.
  - intros a b _ _. destruct (list_eq_dec Z.eq_dec a b) as [E|E], (list_eq_dec Z.eq_dec b a) as [E'|E']; try congruence; unfold Cconj, C0, C1, Re, Im; cbn [fst snd]; f_equal; ring.
  - split.
    + split; [reflexivity|]. intros i k. destruct i as [|[|[|i]]]; cbn [nth path]; try (destruct k as [|[|k]]; apply Cderive_const); [|destruct i; cbn [nth]; destruct k; apply Cderive_const].
      destruct k as [|[|k]]; cbn [nth]; try apply Cderive_const. split; [|apply (derivable_pt_lim_const 0)]. cbn [Re RtoC fst C1].
      change (derivable_pt_lim (fct_cte 1%R + id)%F 0%R 1%R). replace 1%R with (0 + 1)%R at 2 by ring. apply derivable_pt_lim_plus; [apply derivable_pt_lim_const|apply derivable_pt_lim_id].
    + exists (fun s => map Cconj (concat (weight_gradients m (path 0%R) s))). intros s Hs. apply (derivatives_logarithmic m (path 0%R) [s]); [reflexivity|cbn; lia|constructor; [|constructor]|constructor; [|constructor]].
      * exact (proj1 (ExactProofs.spins_spin_string s 1 Hs)).
      * intros z I. assert (E : z = C1) by (cbn in I; destruct I as [<-|[]]; unfold Csum; cbn; unfold spin; csolve).
        subst z. unfold Ccosh, Cexp, Cscale, C1, Cplus, Copp, Re, Im. cbn [fst snd]. rewrite !Ropp_0, cos_0, sin_0. intros Q. injection Q as Q _. pose proof (exp_pos 1). pose proof (exp_pos (- (1))). lra.
Qed.

(** With a positive shift the equations for the exact distribution have a solution. *)
Theorem C83_solvable : forall n H lp (O : list Z -> list C) N shift, (0 < shift)%R -> exists y, solves N (exact_matrix n lp O (RtoC shift)) (exact_force n H lp O) y.
Proof.
  intros n H lp O N shift P. set (A := exact_matrix n lp O (RtoC shift)). set (b := exact_force n H lp O).
  set (rows := map (fun k => map (A k) (seq 0 N)) (seq 0 N)). set (bl := map b (seq 0 N)).
  assert (LR : length rows = N) by (unfold rows; rewrite map_length, seq_length; reflexivity). assert (LB : length bl = N) by (unfold bl; rewrite map_length, seq_length; reflexivity).
  assert (FR : Forall (fun r : list C => length r = N) rows) by (apply Forall_forall; intros r I; unfold rows in I; apply in_map_iff in I as (k & <- & _); rewrite map_length, seq_length; reflexivity).
  assert (ENT : forall i j, i < N -> j < N -> nth j (nth i rows []) C0 = A i j) by (intros i j I J; unfold rows; rewrite (nth_map_seq (fun k => map (A k) (seq 0 N))) by exact I; rewrite nth_map_seq by exact J; reflexivity).
  destruct (C82_elimination N rows bl LR LB FR) as [S1 S2]. destruct (solve N (combine rows bl)) as [x|].
  - destruct (S1 x eq_refl) as [_ [_ SV]]. exists (fun i => nth i x C0). intros i I. rewrite <- (nth_map_seq b N i C0 I). fold bl. rewrite <- (SV i I). apply Csum_ext. intros j J. apply in_seq in J. rewrite ENT by lia. reflexivity.
  - exfalso. destruct (S2 eq_refl) as [z [[i [I Z]] SZ]].
    pose proof (form_shift n lp N O shift z) as FZ.
    assert (Z0 : Csum (fun k => (Cconj (z k) * Csum (fun l => (A k l * z l)%C) (seq 0 N))%C) (seq 0 N) = C0).
    { transitivity (Csum (fun _ : nat => C0) (seq 0 N)); [|clear; induction (seq 0 N) as [|a l IH]; [reflexivity|]; rewrite Csum_cons, IH; ring].
      apply Csum_ext. intros k K. apply in_seq in K. replace (Csum (fun l => (A k l * z l)%C) (seq 0 N)) with C0; [ring|]. rewrite <- (SZ k) by lia. apply Csum_ext. intros l L. apply in_seq in L. rewrite ENT by lia. reflexivity. }
    fold A in FZ. rewrite Z0 in FZ. assert (NP : (0 < Rsum (fun k => Cnorm2 (z k)) (seq 0 N))%R).
    { apply (Rlt_le_trans _ (Cnorm2 (z i))); [apply Cnorm2_pos, Z|]. apply (Rsum_in_le (fun k => Cnorm2 (z k))); [intros; apply Cnorm2_nonneg|apply in_seq; lia]. }
    unfold C0, Re in FZ. cbn [fst] in FZ. nra.
Qed.
Print Assumptions C83_solvable.
Example C83_solvable_ex : (0 < 1 / 20)%R. Proof. lra. Qed.

(** Moving the weights against a solution of the equations of stochastic reconfiguration lowers the energy, by at least twice the shift times the squared length of the solution. *)
Theorem C83_downhill : forall m H path x vs (O : list Z -> list C) shift y, let n := volume (input_dims m) in let N := length (concat (path x)) in
  ExactSpec.hermitian n H -> (forall s, In s (spin_configs n) -> logarithmic_derivatives m (path x) [s] [O s]) -> weights_move path x vs ->
  solves N (exact_matrix n (prediction m (path x)) O (RtoC shift)) (exact_force n H (prediction m (path x)) O) y ->
  (forall k, k < N -> nth k (concat vs) C0 = (- y k)%C) ->
  exists slope, derivable_pt_lim (fun t => Re (expectation n H (prediction m (path t)))) x slope /\ (slope <= - (2 * shift * Rsum (fun k => Cnorm2 (y k)) (seq 0 N)))%R.
Proof.
  intros m H path x vs O shift y n N HH LD M SV Y. eexists. split; [apply C83_energy_slope; eassumption|]. fold n. fold N. set (lp := prediction m (path x)) in *.
  set (F := Csum (fun k => Cconj (y k) * exact_force n H lp O k)%C (seq 0 N)).
  assert (E : row_times N (fun k => Cconj (exact_force n H lp O k)) (fun k => nth k (concat vs) C0) = (- Cconj F)%C).
  { unfold F. rewrite Csum_conj. unfold row_times. transitivity (Csum (fun k => (- C1) * Cconj (Cconj (y k) * exact_force n H lp O k))%C (seq 0 N)).
    - apply Csum_ext. intros k K. apply in_seq in K. rewrite Y by lia. rewrite Cconj_mult, Cconj_conj. ring.
    - rewrite Csum_scal. ring. }
  rewrite E.
  pose proof (form_shift n lp N O shift y) as FS.
  assert (FE : Csum (fun k => (Cconj (y k) * Csum (fun l => (exact_matrix n lp O (RtoC shift) k l * y l)%C) (seq 0 N))%C) (seq 0 N) = F).
  { unfold F. apply Csum_ext. intros k K. apply in_seq in K. rewrite (SV k) by lia. reflexivity. }
  rewrite FE in FS. replace (Re (- Cconj F)%C) with (- Re F)%R by (unfold Copp, Cconj, Re, Im; reflexivity). lra.
Qed.
Print Assumptions C83_downhill.
Example C83_downhill_ex : exists y, solves 3 (exact_matrix 1 (fun _ => C0) (fun s => [RtoC (IZR (nth 0 s 0%Z)); C1; C0]) (RtoC (1 / 20))) (exact_force 1 (fun a b => if list_eq_dec Z.eq_dec a b then C0 else C1) (fun _ => C0) (fun s => [RtoC (IZR (nth 0 s 0%Z)); C1; C0])) y.
Proof. apply C83_solvable. lra. Qed.

(** Lists with given lengths: they can be filled with any entries, and are determined by them. *)
Lemma split_like (ws : list (list C)) : forall l : list C, length l = length (concat ws) -> exists vs, map (@length C) ws = map (@length C) vs /\ concat vs = l.
Proof.
  induction ws as [|w t IH]; intros l E; [destruct l; [|discriminate]; now exists []|]. cbn [concat] in E. rewrite app_length in E.
  destruct (IH (skipn (length w) l)) as (vs & V1 & V2); [rewrite skipn_length; lia|]. exists (firstn (length w) l :: vs). cbn [map concat]. rewrite V1, V2, firstn_skipn.
  split; [f_equal; rewrite firstn_length; lia|reflexivity].
Qed.
Lemma same_entries (a : list (list C)) : forall b, map (@length C) a = map (@length C) b -> concat a = concat b -> a = b.
Proof.
  induction a as [|x a IH]; intros [|y b] E Q; try discriminate; [reflexivity|]. cbn [map concat] in E, Q. injection E as E1 E2.
  assert (X : x = y). { apply (f_equal (firstn (length x))) in Q. rewrite firstn_app, Nat.sub_diag, firstn_O, app_nil_r, firstn_all in Q. rewrite E1, firstn_app, Nat.sub_diag, firstn_O, app_nil_r, firstn_all in Q. exact Q. }
  subst y. f_equal. apply IH; [exact E2|]. exact (app_inv_head _ _ _ Q).
Qed.
Lemma concat_straight (ws : list (list C)) t : forall vs, map (@length C) ws = map (@length C) vs -> concat (straight ws vs t) = map2 (fun a b => (a + RtoC t * b)%C) (concat ws) (concat vs).
Proof.
  unfold straight. induction ws as [|w ws IH]; intros [|v vs] E; try discriminate; [reflexivity|]. cbn [map] in E. injection E as E1 E2. cbn [map2 concat]. rewrite IH by exact E2.
  clear IH E2. revert v E1. induction w as [|a w IHw]; intros [|b v] E1; try discriminate; [reflexivity|]. cbn [map2 app]. f_equal. apply IHw. now injection E1.
Qed.

(** So at weights where the force is not zero, every small enough step against a solution gives weights with lower energy. *)
Theorem C83_lowers : forall m H ws (O : list Z -> list C) shift y, let n := volume (input_dims m) in let N := length (concat ws) in
  ExactSpec.hermitian n H -> (forall s, In s (spin_configs n) -> logarithmic_derivatives m ws [s] [O s]) -> (0 < shift)%R ->
  solves N (exact_matrix n (prediction m ws) O (RtoC shift)) (exact_force n H (prediction m ws) O) y ->
  (exists k, k < N /\ exact_force n H (prediction m ws) O k <> C0) ->
  exists eta, (0 < eta)%R /\ forall lr ws', (0 < lr < eta)%R -> map (@length C) ws' = map (@length C) ws ->
    (forall k, k < N -> nth k (concat ws') C0 = (nth k (concat ws) C0 - RtoC lr * y k)%C) ->
    (Re (expectation n H (prediction m ws')) < Re (expectation n H (prediction m ws)))%R.
Proof.
  intros m H ws O shift y n N HH LD P SV (k & K & NZ).
  destruct (split_like ws (map (fun k => (- y k)%C) (seq 0 N))) as (vs & V1 & V2); [rewrite map_length, seq_length; reflexivity|].
  destruct (straight_moves ws vs V1) as [M S0]. pose proof (C83_downhill m H (straight ws vs) 0%R vs O shift y) as D. cbv zeta in D. rewrite S0 in D.
  destruct D as (slope & D1 & D2); [exact HH|exact LD|exact M|exact SV|intros i I; rewrite V2; now rewrite nth_map_seq|]. fold n in D1, D2. fold N in D2.
  assert (Y : (0 < Rsum (fun k => Cnorm2 (y k)) (seq 0 N))%R).
  { assert (X : exists j, j < N /\ y j <> C0).
    { assert (Dec : forall q, (exists j, j < q /\ y j <> C0) \/ forall j, j < q -> y j = C0).
      { induction q as [|q [(j & J1 & J2)|A]]; [right; lia|left; exists j; split; [lia|exact J2]|].
        destruct (ReconfigurationCgProofs.Ceq_dec (y q) C0) as [E|E]; [right; intros j J; destruct (Nat.eq_dec j q) as [->|]; [exact E|apply A; lia]|left; exists q; split; [lia|exact E]]. }
      destruct (Dec N) as [X|A]; [exact X|]. exfalso. apply NZ. rewrite <- (SV k K). clear - A.
      transitivity (Csum (fun _ : nat => C0) (seq 0 N)); [|induction (seq 0 N) as [|a l IH]; [reflexivity|]; rewrite Csum_cons, IH; ring].
      apply Csum_ext. intros j J. apply in_seq in J. rewrite A by lia. ring. }
    destruct X as (j & J1 & J2). apply (Rlt_le_trans _ (Cnorm2 (y j))); [apply Cnorm2_pos, J2|].
    apply (Rsum_in_le (fun k => Cnorm2 (y k))); [intros; apply Cnorm2_nonneg|apply in_seq; lia]. }
  destruct (ExactTrainingProofs.negative_slope _ slope D1 ltac:(nra)) as (eta & E0 & E1). exists eta. split; [exact E0|]. intros lr ws' L Sh W.
  specialize (E1 lr L). cbv beta in E1. rewrite S0 in E1. replace ws' with (straight ws vs lr); [exact E1|]. symmetry. apply same_entries.
  - rewrite Sh, V1. symmetry. exact (proj1 M lr).
  - rewrite concat_straight by exact V1. assert (LV : length (concat vs) = N) by (rewrite V2, map_length, seq_length; reflexivity).
    assert (LW : length (concat ws') = N). { rewrite <- (lengths_concat _ _ (eq_sym Sh)). reflexivity. }
    apply (nth_ext _ _ C0 C0); [rewrite map2_length; fold N; lia|]. intros i I. rewrite W by lia.
    assert (Q : forall (u v : list C) i, i < length u -> i < length v -> nth i (map2 (fun a b => (a + RtoC lr * b)%C) u v) C0 = (nth i u C0 + RtoC lr * nth i v C0)%C).
    { induction u as [|a u IH]; intros [|b v] [|q] Q1 Q2; cbn [length] in *; try lia; cbn [map2 nth]; [reflexivity|]. apply IH; lia. }
    rewrite Q by (fold N; lia). rewrite V2, nth_map_seq by lia. ring.
Qed.
Print Assumptions C83_lowers.
Example C83_lowers_ex : let m := {| symmetric := false; input_dims := [1]; alpha := 1 |} in let ws := [[C0]; [C0]; [C0]] in
  let H := fun a b => if list_eq_dec Z.eq_dec a b then RtoC (IZR (nth 0 a 0%Z)) else C0 in
  ExactSpec.hermitian 1 H /\ exists O, (forall s, In s (spin_configs 1) -> logarithmic_derivatives m ws [s] [O s]) /\
    (exists k, k < 3 /\ exact_force 1 H (prediction m ws) O k <> C0) /\
    exists y, solves 3 (exact_matrix 1 (prediction m ws) O (RtoC (1 / 20))) (exact_force 1 H (prediction m ws) O) y.
Proof.
  intros m ws H. split.
  { intros a b _ _. unfold H. destruct (list_eq_dec Z.eq_dec a b) as [E|E], (list_eq_dec Z.eq_dec b a) as [E'|E']; try congruence; [subst b|]; unfold Cconj, C0, RtoC, Re, Im; cbn [fst snd]; f_equal; ring. }
  exists (fun s => map Cconj (concat (weight_gradients m ws s))). split; [|split; [exists 2; split; [lia|]|apply C83_solvable; lra]].
  - intros s Hs. apply (derivatives_logarithmic m ws [s]); [reflexivity|cbn; lia|constructor; [|constructor]|constructor; [|constructor]].
    + exact (proj1 (ExactProofs.spins_spin_string s 1 Hs)).
    + intros z I. assert (E : z = C0) by (cbn in I; destruct I as [<-|[]]; unfold Csum; cbn; unfold spin; csolve).
      subst z. unfold Ccosh, Cexp, Cscale, C0, Cplus, Copp, Re, Im. cbn [fst snd]. rewrite !Ropp_0, cos_0, sin_0, exp_0. intros Q. injection Q as Q _. lra.
  - set (lp := prediction m ws).
    assert (LP : forall z, lp [z] = lp [1%Z]).
    { intros z. unfold lp. rewrite !prediction_formula by (try reflexivity; cbn; lia). cbn. unfold Csum. cbn. unfold spin. cbn [nth]. f_equal; [csolve|]. f_equal. f_equal. csolve. }
    set (c := lp [1%Z]) in *. clearbody lp. clearbody c.
    assert (B : (0 < born c)%R) by (apply Cnorm2_pos, Cexp_nonzero).
    assert (PR : forall z, probability 1 lp [z] = (/ 2)%R).
    { intros z. unfold probability, norm2. cbn -[born Rdiv Rinv Rplus]. rewrite ?LP. unfold Rdiv. field. lra. }
    assert (LE : forall z, z = 1%Z \/ z = (-1)%Z -> local_energy 1 H lp [z] = RtoC (IZR z)).
    { intros z Z. unfold local_energy, apply_matrix. cbn. rewrite ?LP. unfold Csum. cbn. unfold H. destruct Z as [-> | ->]; cbn -[Cexp Cdiv Cmult Cplus];
      unfold Cdiv; match goal with |- context [(RtoC ?h * Cexp c)%C] => transitivity (RtoC h * (Cexp c * Cinv (Cexp c)))%C; [ring|rewrite Cmult_inv_r by apply Cexp_nonzero; ring] end. }
    unfold exact_force, exact_covariance, exact_mean. cbn. unfold Csum. cbn. rewrite !PR, !LE by tauto.
    intros Q. apply (f_equal Re) in Q. unfold Cconj, Cminus, Cplus, Copp, Cmult, RtoC, C0, C1, Re, Im in Q. cbn [fst snd] in Q. lra.
Qed.

(** The logarithmic derivatives are one matrix only. *)
Theorem C83_unique : forall m ws samples O O', logarithmic_derivatives m ws samples O -> logarithmic_derivatives m ws samples O' -> O = O'.
Proof. exact derivatives_unique. Qed.
Print Assumptions C83_unique.
Example C83_unique_ex : let m := {| symmetric := true; input_dims := [2]; alpha := 1 |} in exists O, logarithmic_derivatives m [[C0; C0]; [C0]; [C1]] [[1; -1]%Z] O.
Proof.
  destruct C83_amplitude_ex as (F & V & NZ). eexists. apply derivatives_logarithmic; [exact F|exact V|repeat constructor|constructor; [exact NZ|constructor]].
Qed.
