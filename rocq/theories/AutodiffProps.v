(** C79: automatic differentiation as the optimizers use it. *)
From Coq Require Import List Arith Bool Reals Lra Lia.
From Verif Require Import Base Cplx AutodiffModel AutodiffSpec AutodiffProofs.
From Verif Require ReconfigurationModel ReconfigurationProps.
Import ListNotations.
Local Open Scope nat_scope.

(** * An example: the logarithm of psi is the square of one complex weight, whose conjugate is stored *)
Definition square (f k : nat) (z : C) : C := match k with 0 => (z * z)%C | 1 => (RtoC 2 * z)%C | 2 => RtoC 2 | _ => C0 end.
Definition exponential (f k : nat) (x : R) : R := exp x.
(** p, q, -1, -q, p - i q, its square, a vector, a shift, a target and the exponential of p *)
Definition example : graph := [Input 0; Input 1; Const (RtoC (-1)); Mul 1 2; MakeComplex 0 3; Holomorphic 0 0 4; Input 2; Const (RtoC 3); Input 3; RealFunction 0 0 0].

Lemma example_well_formed : well_formed example.
Proof. intros i Hi. cbn in Hi. do 10 (destruct i as [|i]; [cbn; repeat (apply Forall_cons; [lia|]); apply Forall_nil|]). lia. Qed.
Lemma square_derivative z : derivative_at (square 0 0) z (square 0 1 z).
Proof. intros c w <- M. cbn. replace (RtoC 2 * c 0%R * w)%C with (c 0%R * w + w * c 0%R)%C by csolve. now apply velocity_mult. Qed.
Lemma example_smooth env : smooth square exponential example (evaluate square exponential env example).
Proof.
  intros i Hi. cbn in Hi. do 10 (destruct i as [|i]; [cbn [nth example]; try exact Logic.I; try apply square_derivative; try apply derivable_pt_lim_exp|]). lia.
Qed.
Definition w0 (env : nat -> C) : C := (Re (env 0), Ropp (Re (env 1))).
Ltac graph_moves := intros ds Ld b Hb; cbn [length] in Hb; destruct b as [|b]; [|lia]; destruct ds as [|d [|d' ds]]; try discriminate; clear Ld Hb; cbn [nth].
Lemma example_jacobian env : Im (env 1) = 0%R -> jacobian square exponential env example [5] [0; 3] 1 [[(RtoC 2 * w0 env)%C]].
Proof.
  intros R1. graph_moves. replace (linear 1 [(RtoC 2 * w0 env)%C] [d]) with (nth 5 (tangents square exponential (fun j => nth j (evaluate square exponential env example) C0) (along (combine [0; 3] (parts [d]))) example) C0).
  - apply smooth_moves; [apply example_well_formed|apply example_smooth|cbn; lia].
  - cbn. unfold linear, w0, along, Csum, range, square, Re, Im in *. cbn. rewrite R1. csolve.
Qed.
Lemma example_conjugate_jacobian env : Im (env 1) = 0%R -> conjugate_jacobian square exponential env example [5] [0; 1] 1 [[(RtoC 2 * w0 env)%C]].
Proof.
  intros R1. graph_moves. replace (linear 1 [(RtoC 2 * w0 env)%C] (map Cconj [d])) with (nth 5 (tangents square exponential (fun j => nth j (evaluate square exponential env example) C0) (along (combine [0; 1] (parts [d]))) example) C0).
  - apply smooth_moves; [apply example_well_formed|apply example_smooth|cbn; lia].
  - cbn. unfold linear, w0, along, Csum, range, square, Re, Im in *. cbn. rewrite R1. csolve.
Qed.
Lemma example_depends w : In w ([0; 1] ++ [0; 3]) -> exists y, In y [5] /\ depends example w y.
Proof.
  intros Hw. exists 5. split; [now left|]. apply (depends_through _ _ 5 4); [cbn; lia|now left|]. cbn in Hw. destruct Hw as [<-|[<-|[<-|[<-|[]]]]].
  - apply (depends_through _ _ 4 0); [cbn; lia|now left|apply depends_self].
  - apply (depends_through _ _ 4 3); [cbn; lia|right; now left|]. apply (depends_through _ _ 3 1); [cbn; lia|now left|apply depends_self].
  - apply (depends_through _ _ 4 0); [cbn; lia|now left|apply depends_self].
  - apply (depends_through _ _ 4 3); [cbn; lia|right; now left|apply depends_self].
Qed.
Ltac graph_in := repeat (apply Forall_cons; [cbn; lia|]); apply Forall_nil.

Lemma linear_map2 n : forall row vs, length row = n -> length vs = n -> linear n row vs = Csum (fun z => z) (map2 Cmult row vs).
Proof.
  unfold linear. induction n as [|m IH]; intros [|a row] [|c vs] Lr Lvs; try discriminate; [reflexivity|]. unfold range in *. cbn [seq map2]. rewrite !Csum_cons. cbn [nth]. f_equal.
  rewrite <- seq_shift, Csum_map. cbn [nth]. apply IH; cbn in *; lia.
Qed.

(** * tf.gradients *)

(** Running a graph gives every node the value of its operation, and adding nodes does not change the values there are. *)
Theorem C79_values : forall H F env h, well_formed h ->
  length (evaluate H F env h) = length h /\
  (forall i, i < length h -> nth i (evaluate H F env h) C0 = op_value H F env (fun j => nth j (evaluate H F env h) C0) (nth i h (Const C0))) /\
  forall h' i, extends h h' -> i < length h -> nth i (evaluate H F env h') C0 = nth i (evaluate H F env h) C0.
Proof.
  intros H F env h W. split; [apply evaluate_length|]. split; [intros i Hi; now apply (value_equation H F env)|]. intros h' i X Hi. now apply (value_extends H F env h h').
Qed.
Print Assumptions C79_values.
Example C79_values_ex : well_formed example. Proof. apply example_well_formed. Qed.

(** Moving the x's with velocities ds moves the y's with velocities ws that depend linearly on ds, and what tf.gradients returns is the adjoint of this map: weighted with the
    given gradients, the motions of the y's are the motions of the x's weighted with the returned gradients. *)
Theorem C79_gradients : forall H F env h ys xs grad_ys ds, well_formed h -> smooth H F h (evaluate H F env h) -> in_graph h ys -> in_graph h grad_ys ->
  length grad_ys = length ys -> length ds = length xs ->
  let '(h', grads) := gradients h ys xs grad_ys in
  extends h h' /\ well_formed h' /\ length grads = length xs /\
  exists ws, Forall2 (moves H F env h (along (combine xs ds))) ys ws /\
    Rsum (fun p => inner (nth (fst p) (evaluate H F env h') C0) (snd p)) (combine grad_ys ws) =
    Rsum (fun p => inner (value_or_zero (evaluate H F env h') (fst p)) (snd p)) (combine grads ds).
Proof.
  intros H F env h ys xs grad_ys ds W Sm Y G L Ld. destruct (gradients h ys xs grad_ys) as [h' grads] eqn:E. destruct (gradients_ok _ _ _ _ _ _ W G E) as [W' [_ [X' L']]].
  split; [exact X'|]. split; [exact W'|]. split; [exact L'|].
  exists (map (fun y => nth y (tangents H F (fun j => nth j (evaluate H F env h') C0) (along (combine xs ds)) h) C0) ys). split.
  - clear E L. unfold in_graph in Y. induction Y as [|y ys Hy Y IH]; cbn [map]; constructor; [|exact IH]. now apply tangents_moves.
  - pose proof (adjoint_values H F env (fun _ => C0) h ys xs grad_ys h' grads h' ds W' (extends_refl _) W Y G E ltac:(reflexivity) Ld) as A. cbn zeta in A. rewrite <- evaluate_perturbed in A.
    etransitivity; [|exact A]. clear - L. revert grad_ys L. induction ys as [|y ys IH]; intros [|g gs] L; try discriminate; [reflexivity|]. cbn [map combine]. rewrite !Rsum_cons. cbn [fst snd]. f_equal. apply IH. cbn in L. lia.
Qed.
Print Assumptions C79_gradients.
Example C79_gradients_ex : well_formed example /\ smooth square exponential example (evaluate square exponential (fun _ => C1) example) /\ in_graph example [5; 9] /\ in_graph example [6; 7].
Proof. split; [apply example_well_formed|]. split; [apply example_smooth|]. split; graph_in. Qed.

(** It returns None exactly for the x's that no y depends on. *)
Theorem C79_none : forall h ys xs grad_ys, well_formed h -> in_graph h ys -> length grad_ys = length ys ->
  Forall2 (fun x g => g = None <-> forall y, In y ys -> ~ depends h x y) xs (snd (gradients h ys xs grad_ys)).
Proof. intros h ys xs grad_ys W Y L. destruct (gradients h ys xs grad_ys) as [h' grads] eqn:E. eapply gradients_none; eauto. Qed.
Print Assumptions C79_none.
Example C79_none_ex : snd (gradients example [5; 9] [0; 1; 3; 6] [6; 7]) <> [] /\ nth 3 (snd (gradients example [5; 9] [0; 1; 3; 6] [6; 7])) (Some 0) = None.
Proof. split; [discriminate|reflexivity]. Qed.

(** * forward_mode_gradients *)

(** Two backward passes give the forward derivative: the velocity of every y when the x's move along grad_xs. *)
Theorem C79_forward_mode : forall H F env nan h ys xs grad_xs, well_formed h -> smooth H F h (evaluate H F env h) -> in_graph h ys -> in_graph h xs -> in_graph h grad_xs ->
  length grad_xs = length xs ->
  let '(h', results) := forward_mode_gradients nan h ys xs grad_xs in
  extends h h' /\ well_formed h' /\
  Forall2 (fun y r => moves H F env h (along (combine xs (map (fun g => nth g (evaluate H F env h) C0) grad_xs))) y (value_or_zero (evaluate H F env h') r)) ys results.
Proof.
  intros H F env nan h ys xs grad_xs W Sm Y X G L. destruct (forward_mode_gradients nan h ys xs grad_xs) as [h' results] eqn:E.
  destruct (forward_mode_structure nan h ys xs grad_xs h' results W Y G L E) as [W' [X' [_ [L' _]]]]. split; [exact X'|]. split; [exact W'|].
  pose proof (forward_mode_jvp H F env nan h ys xs grad_xs h' results h' W' (extends_refl _) W Y X G L E) as FJ. cbn zeta in FJ. rewrite <- evaluate_perturbed in FJ.
  assert (EG : map (fun i => nth i (evaluate H F env h') C0) grad_xs = map (fun g => nth g (evaluate H F env h) C0) grad_xs).
  { apply map_ext_in. intros g Hg. apply (value_extends H F env h h' g X'). unfold in_graph in G. rewrite Forall_forall in G. auto. }
  rewrite EG in FJ. clear EG E. revert results L' FJ. induction Y as [|y ys Hy Y IH]; intros [|r results] L' FJ; try discriminate; constructor.
  - injection FJ as F1 F2. unfold value_or_zero. replace (match r with Some i => nth i (evaluate H F env h') C0 | None => C0 end) with (value_of (fun i => nth i (evaluate H F env h') C0) r) by reflexivity. rewrite F1. now apply tangents_moves.
  - apply IH; [cbn in L'; lia|]. injection FJ as F1 F2. exact F2.
Qed.
Print Assumptions C79_forward_mode.
Example C79_forward_mode_ex : well_formed example /\ smooth square exponential example (evaluate square exponential (fun _ => C1) example) /\ in_graph example [5; 9] /\ in_graph example [0; 3].
Proof. split; [apply example_well_formed|]. split; [apply example_smooth|]. split; graph_in. Qed.

(** None is returned exactly for the y's that depend on no x. The placeholders hold nan; nothing that is returned depends on them, so that the session never looks at them. *)
Theorem C79_placeholders : forall nan h ys xs grad_xs, well_formed h -> in_graph h ys -> in_graph h grad_xs -> length grad_xs = length xs ->
  let '(h', results) := forward_mode_gradients nan h ys xs grad_xs in
  Forall2 (fun y r => r = None <-> forall x, In x xs -> ~ depends h x y) ys results /\
  (forall j, j < length ys -> nth (length h + j) h' (Const C0) = Const nan) /\
  forall r u, In (Some r) results -> length h <= u < length h + length ys -> ~ depends h' u r.
Proof.
  intros nan h ys xs grad_xs W Y G L. destruct (forward_mode_gradients nan h ys xs grad_xs) as [h' results] eqn:E.
  destruct (forward_mode_structure nan h ys xs grad_xs h' results W Y G L E) as [_ [_ [_ [_ [D P]]]]]. split; [exact D|]. split; [|exact P].
  unfold forward_mode_gradients in E. destruct (gradients (h ++ repeat (Const nan) (length ys)) ys xs _) as [h2 dydxs] eqn:E1. destruct (fill_zeros h2 dydxs) as [h3 ids] eqn:E2.
  assert (W1 : well_formed (h ++ repeat (Const nan) (length ys))) by (apply well_formed_app; [exact W|apply repeat_reads]).
  assert (L1 : length (h ++ repeat (Const nan) (length ys)) = length h + length ys) by (rewrite app_length, repeat_length; reflexivity).
  assert (U1 : in_graph (h ++ repeat (Const nan) (length ys)) (seq (length h) (length ys))) by (apply Forall_forall; intros u Hu; apply in_seq in Hu; lia).
  destruct (gradients_ok _ _ _ _ _ _ W1 U1 E1) as [W2 [N2 [X2 _]]]. destruct (fill_zeros_ok (fun _ _ z => z) (fun _ _ z => z) _ _ _ _ W2 N2 E2) as [W3 [X3 _]].
  assert (X13 : extends (h ++ repeat (Const nan) (length ys)) h3) by (eapply extends_trans; eauto).
  destruct (gradients_ok _ _ _ _ _ _ W3 (extends_in _ _ _ (extends_trans _ _ _ (extends_app _ _) X13) G) E) as [_ [_ [X4 _]]].
  intros j Hj. rewrite (extends_nth _ _ _ (extends_trans _ _ _ X13 X4)) by lia. rewrite app_nth2 by lia. replace (length h + j - length h) with j by lia.
  clear - Hj. revert j Hj. induction (length ys) as [|k IH]; intros [|j] Hj; cbn; try lia; [reflexivity|]. apply IH. lia.
Qed.
Print Assumptions C79_placeholders.
Example C79_placeholders_ex : well_formed example /\ in_graph example [5; 9; 7] /\ in_graph example [6; 8] /\
  map (fun r => match r with Some _ => true | None => false end) (snd (forward_mode_gradients C1 example [5; 9; 7] [0; 3] [6; 8])) = [true; true; false].
Proof. split; [apply example_well_formed|]. split; [graph_in|]. split; [graph_in|reflexivity]. Qed.

(** * Complex weights *)

(** get_model_parameters_complex_value_gradients raises ValueError exactly when some weight has no influence on the outputs. *)
Theorem C79_unused_weight : forall h ys weights grad_ys n, well_formed h -> in_graph h ys -> in_graph h grad_ys -> length grad_ys = length ys -> length weights = 2 * n ->
  ((exists w, In w weights /\ forall y, In y ys -> ~ depends h w y) -> complex_value_gradients h ys weights (Some grad_ys) = Err ValueError) /\
  ((forall w, In w weights -> exists y, In y ys /\ depends h w y) -> exists h' grads, complex_value_gradients h ys weights (Some grad_ys) = Ok (h', grads) /\ extends h h' /\ well_formed h' /\ length grads = n).
Proof.
  intros h ys weights grad_ys n W Y G L Lw. destruct (complex_gradients_ok (fun _ _ z => z) (fun _ _ z => z) (fun _ => C0) h ys weights grad_ys n W Y G L Lw) as [A [B Q]]. split; [exact A|].
  intros D. destruct (B D) as [h' [gs E]]. exists h', gs. destruct (Q h' gs E) as [W' [X' [_ [L' _]]]]. auto.
Qed.
Print Assumptions C79_unused_weight.
Example C79_unused_weight_ex : complex_value_gradients example [5] [0; 6] (Some [7]) = Err ValueError /\ forall w, In w [0; 3] -> exists y, In y [5] /\ depends example w y.
Proof. split; [reflexivity|]. intros w Hw. apply example_depends. apply in_or_app. now right. Qed.

(** Outputs that depend on complex weights with derivatives O: with respect to real parts and negated imaginary parts (conjugate_gradients=True) the gradients are the adjoint of O
    times the given gradients. *)
Theorem C79_vector_jacobian_product : forall H F env h ys weights grad_ys n O, well_formed h -> smooth H F h (evaluate H F env h) -> in_graph h ys -> in_graph h grad_ys ->
  length grad_ys = length ys -> length weights = 2 * n -> jacobian H F env h ys weights n O ->
  forall h' grads, complex_value_gradients h ys weights (Some grad_ys) = Ok (h', grads) ->
  map (fun g => nth g (evaluate H F env h') C0) grads =
  map (fun k => Csum (fun b => (Cconj (nth k (nth b O []) C0) * nth (nth b grad_ys 0%nat) (evaluate H F env h) C0)%C) (range (length ys))) (range n).
Proof.
  intros H F env h ys weights grad_ys n O W Sm Y G L Lw J h' grads E. destruct (complex_gradients_ok H F env h ys weights grad_ys n W Y G L Lw) as [_ [_ Q]]. destruct (Q h' grads E) as [W' [X' _]].
  etransitivity; [exact (vjp_values H F env h h ys weights grad_ys n O h' grads h' W (extends_refl _) Y G L Lw Sm J E W' (extends_refl _))|].
  apply map_ext. intros k. apply Csum_ext. intros b Hb. apply in_seq in Hb. f_equal. apply (value_extends H F env h h' _ X'). apply in_graph_nth; [exact G|lia].
Qed.
Print Assumptions C79_vector_jacobian_product.
Example C79_vector_jacobian_product_ex : jacobian square exponential (fun _ => C1) example [5] [0; 3] 1 [[(RtoC 2 * w0 (fun _ => C1))%C]].
Proof. now apply example_jacobian. Qed.

(** With respect to the stored weights (conjugate_gradients=False) they are the transpose of O times the conjugates. *)
Theorem C79_stored_weights : forall H F env h ys weights grad_ys n O, well_formed h -> smooth H F h (evaluate H F env h) -> in_graph h ys -> in_graph h grad_ys ->
  length grad_ys = length ys -> length weights = 2 * n -> conjugate_jacobian H F env h ys weights n O ->
  forall h' grads, complex_value_gradients h ys weights (Some grad_ys) = Ok (h', grads) ->
  map (fun g => nth g (evaluate H F env h') C0) grads =
  map (fun k => Csum (fun b => (nth k (nth b O []) C0 * Cconj (nth (nth b grad_ys 0%nat) (evaluate H F env h) C0))%C) (range (length ys))) (range n).
Proof.
  intros H F env h ys weights grad_ys n O W Sm Y G L Lw J h' grads E. destruct (complex_gradients_ok H F env h ys weights grad_ys n W Y G L Lw) as [_ [_ Q]]. destruct (Q h' grads E) as [W' [X' _]].
  etransitivity; [exact (vjp_values_conj H F env h h ys weights grad_ys n O h' grads h' W (extends_refl _) Y G L Lw Sm J E W' (extends_refl _))|].
  apply map_ext. intros k. apply Csum_ext. intros b Hb. apply in_seq in Hb. do 2 f_equal. apply (value_extends H F env h h' _ X'). apply in_graph_nth; [exact G|lia].
Qed.
Print Assumptions C79_stored_weights.
Example C79_stored_weights_ex : conjugate_jacobian square exponential (fun _ => C1) example [5] [0; 1] 1 [[(RtoC 2 * w0 (fun _ => C1))%C]].
Proof. now apply example_conjugate_jacobian. Qed.

(** get_predictions_jacobian_vector_product is O times the vector. *)
Theorem C79_jacobian_vector_product : forall H F env nan h ys weights vector n O, well_formed h -> smooth H F h (evaluate H F env h) -> in_graph h ys -> in_graph h weights -> in_graph h vector ->
  length weights = 2 * n -> length vector = n -> jacobian H F env h ys weights n O ->
  let '(h', jvp) := jacobian_vector_product nan h ys weights vector in
  map (value_or_zero (evaluate H F env h')) jvp = map (fun b => linear n (nth b O []) (map (fun v => nth v (evaluate H F env h) C0) vector)) (range (length ys)).
Proof.
  intros H F env nan h ys weights vector n O W Sm Y Wt Vg Lw Lv J. destruct (jacobian_vector_product nan h ys weights vector) as [h' jvp] eqn:E.
  destruct (jvp_ok H F env nan h h ys weights vector n O h' jvp W (extends_refl _) Y Wt Vg Lw Lv Sm J E) as [W' [X' [_ [_ [_ V']]]]].
  etransitivity; [exact (V' h' W' (extends_refl _))|]. apply map_ext. intros b. f_equal. apply map_ext_in. intros v Hv. apply (value_extends H F env h h' _ X'). unfold in_graph in Vg. rewrite Forall_forall in Vg. auto.
Qed.
Print Assumptions C79_jacobian_vector_product.
Example C79_jacobian_vector_product_ex : jacobian square exponential (fun _ => C1) example [5] [0; 3] 1 [[(RtoC 2 * w0 (fun _ => C1))%C]] /\ in_graph example [6].
Proof. split; [now apply example_jacobian|graph_in]. Qed.

(** * Stochastic reconfiguration *)

(** The gradient of the mean of the real parts with respect to the stored weights is the mean of O. *)
Theorem C79_mean_gradient : forall H F env h ys weights n O, well_formed h -> smooth H F h (evaluate H F env h) -> in_graph h ys -> in_graph h weights -> length weights = 2 * n ->
  conjugate_jacobian H F env h ys weights n O -> (forall w, In w weights -> exists y, In y ys /\ depends h w y) ->
  exists h' grads, mean_gradient h ys weights = Ok (h', grads) /\
  map (fun g => nth g (evaluate H F env h') C0) grads = map (fun k => (Csum (fun b => nth k (nth b O []) C0) (range (length ys)) * RtoC (/ INR (length ys)))%C) (range n).
Proof.
  intros H F env h ys weights n O W Sm Y Wt Lw J D. destruct (mean_gradient_ok H F env h ys weights n O W Y Wt Lw Sm J) as [A Q]. destruct (A D) as [h' [gs E]]. exists h', gs. split; [exact E|].
  destruct (Q h' gs E) as [W' [_ [_ [_ V']]]]. exact (V' h' W' (extends_refl _)).
Qed.
Print Assumptions C79_mean_gradient.
Example C79_mean_gradient_ex : conjugate_jacobian square exponential (fun _ => C1) example [5] [0; 1] 1 [[(RtoC 2 * w0 (fun _ => C1))%C]] /\ forall w, In w [0; 1] -> exists y, In y [5] /\ depends example w y.
Proof. split; [now apply example_conjugate_jacobian|]. intros w Hw. apply example_depends. apply in_or_app. now left. Qed.

(** With use_energy_loss the gradient is the adjoint of O times the conjugated targets, divided by the size of the batch: the other branch without this factor, when the
    targets sum to zero. *)
Theorem C79_energy_loss : forall H F env h ys targets weights n O, well_formed h -> smooth H F h (evaluate H F env h) -> in_graph h ys -> in_graph h targets -> in_graph h weights ->
  length targets = length ys -> length weights = 2 * n -> conjugate_jacobian H F env h ys weights n O -> (forall w t, In w weights -> In t targets -> ~ depends h w t) ->
  (forall w, In w weights -> exists y, In y ys /\ depends h w y) -> Forall (fun row => length row = n) O -> length O = length ys ->
  Csum (fun t => nth t (evaluate H F env h) C0) targets = C0 ->
  exists h' grads, energy_loss_gradient h ys targets weights = Ok (h', grads) /\
  map (fun g => nth g (evaluate H F env h') C0) grads =
  map (fun z => (z * RtoC (/ INR (length ys)))%C) (ReconfigurationModel.energy_grad n O (map (fun t => nth t (evaluate H F env h) C0) targets)).
Proof.
  intros H F env h ys targets weights n O W Sm Y Tg Wt Lt Lw J Nt D FO LO S0.
  destruct (energy_loss_gradient_ok H F env h ys targets weights n O W Y Tg Wt Lt Lw Sm J Nt) as [A Q]. destruct (A D) as [h' [gs E]]. exists h', gs. split; [exact E|].
  etransitivity; [exact (Q h' gs E)|]. unfold ReconfigurationModel.energy_grad, ReconfigurationModel.adjoint_matvec. rewrite map_map. apply map_ext_in. intros k Hk. apply in_seq in Hk. f_equal.
  set (t := fun b => nth (nth b targets 0%nat) (evaluate H F env h) C0).
  set (m := nth k (ReconfigurationModel.mean_grad n O) C0).
  transitivity (Csum (fun b => (Cconj (nth k (nth b O []) C0 - m) * Cconj (t b))%C) (range (length ys))).
  - rewrite (Csum_ext (fun b => (Cconj (nth k (nth b O []) C0 - m) * Cconj (t b))%C) (fun b => (Cconj (nth k (nth b O []) C0) * Cconj (t b) - Cconj m * Cconj (t b))%C))
      by (intros b _; unfold Cconj, Cminus, Cplus, Copp, Cmult, Re, Im; cbn; f_equal; ring).
    rewrite Csum_minus, Csum_scal, <- Csum_conj. rewrite (Csum_range_nth _ targets 0) in S0. rewrite Lt in S0. fold t in S0. change (Csum t (range (length ys)) = C0) in S0. rewrite S0.
    replace (Cconj C0) with C0 by csolve. unfold t. ring.
  - assert (G : forall (Os : list (list C)) (ts : list C), length Os = length ts -> Forall (fun row => length row = n) Os ->
      Csum (fun b => (Cconj (nth k (nth b Os []) C0 - m) * Cconj (nth b ts C0))%C) (range (length ts)) =
      Csum (fun z => z) (map2 (fun row x => (Cconj (nth k row C0) * x)%C) (map (fun row => ReconfigurationModel.csub row (ReconfigurationModel.mean_grad n O)) Os) (map Cconj ts))).
    { induction Os as [|row Os IH]; intros [|x ts] L FF; try discriminate; [reflexivity|]. inversion FF as [|? ? F1 F2]; subst. cbn [length map map2]. unfold range. cbn [seq]. rewrite !Csum_cons. cbn [nth]. f_equal.
      - f_equal. f_equal. unfold ReconfigurationModel.csub, m. assert (Lm : length (ReconfigurationModel.mean_grad (length row) O) = length row) by (unfold ReconfigurationModel.mean_grad; rewrite map_length; apply range_length).
        assert (Hk' : k < length row) by lia. revert Lm Hk'. generalize (ReconfigurationModel.mean_grad (length row) O) as mg. clear. intros mg Lm Hk. revert k mg Lm Hk.
        induction row as [|a row IH]; intros [|k] [|c mg] Lm Hk; cbn in *; try lia; [reflexivity|]. apply IH; lia.
      - rewrite <- (IH ts ltac:(cbn in L; lia) F2). rewrite <- seq_shift, Csum_map. reflexivity. }
    specialize (G O (map (fun t => nth t (evaluate H F env h) C0) targets) ltac:(rewrite map_length; lia) FO). rewrite map_length, Lt in G. unfold ReconfigurationModel.jacobian_minus_mean. rewrite <- G.
    apply Csum_ext. intros b Hb. apply in_seq in Hb. rewrite (nth_of_map _ targets b 0%nat C0) by lia. reflexivity.
Qed.
Print Assumptions C79_energy_loss.
Example C79_energy_loss_ex : in_graph example [8] /\ (forall w t, In w [0; 1] -> In t [8] -> ~ depends example w t) /\
  forall env, env 3 = C0 -> Csum (fun t => nth t (evaluate square exponential env example) C0) [8] = C0.
Proof.
  split; [graph_in|]. split.
  - intros w t Hw [<-|[]] D. apply depends_inv in D. destruct D as [<-|[_ [a [[] _]]]]. cbn in Hw. lia.
  - intros env E. cbn. rewrite E. unfold Csum. cbn. csolve.
Qed.

(** The product from forward and backward derivatives is the product with the covariance matrix of stochastic reconfiguration. *)
Theorem C79_product : forall H F env nan h ys weights conj_weights vector shift n O, well_formed h -> smooth H F h (evaluate H F env h) ->
  in_graph h ys -> in_graph h weights -> in_graph h conj_weights -> in_graph h vector -> shift < length h ->
  length weights = 2 * n -> length conj_weights = 2 * n -> length vector = n -> 0 < n -> ys <> [] ->
  conjugate_jacobian H F env h ys weights n O -> jacobian H F env h ys conj_weights n O -> Forall (fun row => length row = n) O -> length O = length ys ->
  (forall w, In w (weights ++ conj_weights) -> exists y, In y ys /\ depends h w y) ->
  exists h' out, product_via_jvp_nodes nan h ys weights conj_weights vector shift = Ok (h', out) /\
    map (fun i => nth i (evaluate H F env h') C0) out =
    ReconfigurationModel.matvec (ReconfigurationModel.s_matrix n (nth shift (evaluate H F env h) C0) (ReconfigurationModel.jacobian_minus_mean n O)) (map (fun v => nth v (evaluate H F env h) C0) vector).
Proof.
  intros H F env nan h ys weights cw vector shift n O W Sm Y Wt Cw Vg Ls Lw Lc Lv Hn Ny CJ J FO LO D.
  destruct (product_via_jvp_ok H F env nan h ys weights cw vector shift n O W Y Wt Cw Vg Ls Lw Lc Lv Hn Sm CJ J D) as [h' [out [E V]]]. exists h', out. split; [exact E|].
  assert (HB : 0 < length O) by (rewrite LO; destruct ys; [congruence|cbn; lia]).
  set (vs := map (fun v => nth v (evaluate H F env h) C0) vector) in *. assert (Lvs : length vs = n) by (unfold vs; rewrite map_length; exact Lv).
  destruct (ReconfigurationProps.C48_products_agree n O FO HB (nth shift (evaluate H F env h) C0) vs Lvs) as [_ <-].
  etransitivity; [exact V|]. unfold ReconfigurationModel.product_via_jvp. clear V E D CJ J Sm.
  assert (LIN : forall row, length row = n -> linear n row vs = Csum (fun z => z) (map2 Cmult row vs)).
  { intros row Lr. now apply linear_map2. }
  assert (MG : ReconfigurationModel.mean_grad n O = map (fun k => (Csum (fun b => nth k (nth b O []) C0) (range (length ys)) * RtoC (/ INR (length ys)))%C) (range n)).
  { unfold ReconfigurationModel.mean_grad. apply map_ext. intros k. rewrite (Csum_range_nth _ O []), LO. rewrite <- LO. rewrite Cdiv_RtoC by (apply not_0_INR; lia). rewrite Cscale_RtoC. ring. }
  set (rem := Csum (fun z => z) (map2 Cmult vs (ReconfigurationModel.mean_grad n O))).
  assert (RM : Csum (fun l => (nth (nth l vector 0%nat) (evaluate H F env h) C0 * (Csum (fun b => nth l (nth b O []) C0) (range (length ys)) * RtoC (/ INR (length ys))))%C) (range n) = rem).
  { unfold rem. assert (Lm : length (ReconfigurationModel.mean_grad n O) = n) by (rewrite MG, map_length; apply range_length).
    transitivity (Csum (fun l => (nth l vs C0 * nth l (ReconfigurationModel.mean_grad n O) C0)%C) (range n)).
    - apply Csum_ext. intros l Hl. apply in_seq in Hl. rewrite MG, nth_map_range by lia. unfold vs. rewrite (nth_of_map _ vector l 0%nat C0) by lia. reflexivity.
    - now apply linear_map2. }
  rewrite RM. unfold ReconfigurationModel.cadd.
  apply nth_ext with C0 C0.
  { rewrite map_length, range_length. assert (LL : forall (a b : list C), length a = n -> length b = n -> length (map2 Cplus a b) = n).
    { clear. induction n as [|m IH]; intros [|x a] [|y b] La Lb; try discriminate; [reflexivity|]. cbn. f_equal. apply IH; cbn in *; lia. }
    symmetry. apply LL; rewrite !map_length; [unfold ReconfigurationModel.adjoint_matvec; rewrite map_length; apply range_length|exact Lvs]. }
  rewrite map_length, range_length. intros k Hk. rewrite nth_map_range by exact Hk.
  assert (N2 : forall (a b : list C), length a = n -> length b = n -> nth k (map2 Cplus a b) C0 = (nth k a C0 + nth k b C0)%C).
  { clear - Hk. revert k Hk. induction n as [|m IH]; intros k Hk [|x a] [|y b] La Lb; try discriminate; [lia|]. destruct k as [|k]; [reflexivity|]. cbn [map2 nth]. apply IH; cbn in *; lia. }
  rewrite N2; [|rewrite map_length; unfold ReconfigurationModel.adjoint_matvec; rewrite map_length; apply range_length|rewrite map_length; exact Lvs]. clear N2. f_equal.
  - rewrite (nth_of_map _ _ k C0 C0) by (unfold ReconfigurationModel.adjoint_matvec; rewrite map_length, range_length; exact Hk). rewrite <- LO. rewrite Cdiv_RtoC by (apply not_0_INR; lia). rewrite Cscale_RtoC. match goal with |- (_ * ?r)%C = (?r * ?c)%C => replace (r * c)%C with (c * r)%C by ring end. f_equal.
    unfold ReconfigurationModel.adjoint_matvec. rewrite nth_map_range by exact Hk. unfold ReconfigurationModel.matvec. rewrite map_map. clearbody rem. clear - FO LIN.
    induction FO as [|row O Lr FO IH]; [reflexivity|]. cbn [length map map2]. unfold range in *. cbn [seq]. rewrite !Csum_cons. cbn [nth]. rewrite (LIN row Lr). f_equal. rewrite <- seq_shift, Csum_map. exact IH.
  - rewrite (nth_of_map _ vs k C0 C0) by lia. f_equal. unfold vs. rewrite (nth_of_map _ vector k 0%nat C0) by lia. reflexivity.
Qed.
Print Assumptions C79_product.
Example C79_product_ex : let env := fun _ : nat => C1 in let O := [[(RtoC 2 * w0 env)%C]] in
  well_formed example /\ smooth square exponential example (evaluate square exponential env example) /\ in_graph example [5] /\ in_graph example [0; 1] /\ in_graph example [0; 3] /\ in_graph example [6] /\
  conjugate_jacobian square exponential env example [5] [0; 1] 1 O /\ jacobian square exponential env example [5] [0; 3] 1 O /\
  forall w, In w ([0; 1] ++ [0; 3]) -> exists y, In y [5] /\ depends example w y.
Proof.
  cbn zeta. split; [apply example_well_formed|]. split; [apply example_smooth|]. do 4 (split; [graph_in|]). split; [now apply example_conjugate_jacobian|]. split; [now apply example_jacobian|exact example_depends].
Qed.
