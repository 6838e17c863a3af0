(** C82: one step of ComplexValuesStochasticReconfiguration with any of its options. *)
From Coq Require Import String Ascii List ZArith Reals Lra Lia Bool Arith.
From Verif Require Import Base Cplx IsingModel ReconfigurationModel ReconfigurationSpec ReconfigurationVecProofs ReconfigurationCgProofs ReconfigurationProofs SolverModel SolverSpec SolverProofs SolverMatrixProofs.
Import ListNotations.
Local Open Scope string_scope.
Local Open Scope list_scope.
Local Open Scope nat_scope.

(** The explicit jacobian: row i cut into the shapes of the weights is the list of tensors of derivatives for example i, in the order in which the direction is cut afterwards. Without
    a jacobian, without weights, with a single real tensor (half of a complex one) and without examples the step raises. *)
Theorem C82_jacobian :
  (forall B parts, 0 < B -> parts <> [] -> exists m, get_predictions_jacobian (Some (derivative_tensors B parts)) = Ok m /\ length m = B /\
     forall i, i < B -> length (nth i m []) = entries (map fst parts) /\
       column_to_tensors (map fst parts) (nth i m []) = Ok (map (fun p => (fst p, map (snd p i) (seq 0 (fold_right Nat.mul 1 (fst p))))) parts)) /\
  (forall parts, parts <> [] -> get_predictions_jacobian (Some (derivative_tensors 0 parts)) = Err GenericException) /\
  get_predictions_jacobian None = Err AssertionError /\ get_predictions_jacobian (Some []) = Err IndexError /\
  (forall B t, get_predictions_jacobian (Some [(B, t)]) = Err ValueError).
Proof.
  split; [|split; [exact jacobian_empty|split; [reflexivity|split; [reflexivity|intros; reflexivity]]]]. intros B parts P N. exists (rows_of B parts). split; [apply jacobian_rows; assumption|]. split; [unfold rows_of; rewrite map_length, seq_length; reflexivity|].
  intros i I. set (ts := map (fun p => (fst p, map (snd p i) (seq 0 (fold_right Nat.mul 1 (fst p))))) parts).
  assert (E : nth i (rows_of B parts) [] = concat (map snd ts)).
  { unfold rows_of. rewrite nth_map_seq by exact I. unfold ts. rewrite map_map. reflexivity. }
  assert (F : Forall (fun t => length (snd t) = size_of (fst t)) ts).
  { unfold ts. apply Forall_map, Forall_forall. intros p _. cbn [fst snd]. rewrite map_length, seq_length. reflexivity. }
  assert (M : map fst parts = map fst ts) by (unfold ts; rewrite map_map; reflexivity). rewrite E, M. split; [apply concat_total, F|].
  rewrite c2t_cut. rewrite <- (app_nil_r (concat (map snd ts))). apply cut_back, F.
Qed.
Print Assumptions C82_jacobian.
Example C82_jacobian_ex : get_predictions_jacobian (Some [(2, [1; 2; 3; 4]%R); (2, [5; 6; 7; 8]%R); (2, [0; 9]%R); (2, [1; 1]%R)]) = Ok [[(1, 5); (2, 6); (0, 1)]; [(3, 7); (4, 8); (9, 1)]]%R.
Proof. reflexivity. Qed.

(** Cholesky: for a hermitian matrix the factor exists iff the matrix is positive definite, it is lower triangular with positive diagonal, the product with its adjoint is the matrix,
    and the two substitutions solve the system. *)
Theorem C82_cholesky : forall n A, hermitian n A ->
  ((exists L, cholesky n A = Some L) <-> definite n A) /\
  forall L, cholesky n A = Some L -> cholesky_factor n A L /\
    forall b, length b = n -> length (cholesky_solve n L b) = n /\ solves n A (fun i => nth i b C0) (fun i => nth i (cholesky_solve n L b) C0).
Proof.
  intros n A H. split.
  - rewrite <- (cholesky_definite n A H). split; [intros [L E] N; rewrite E in N; discriminate|]. destruct (cholesky n A) as [L|]; [intros _; exists L; reflexivity|intros N; contradiction].
  - intros L E. split; [apply cholesky_factors; assumption|]. intros b LB. apply cholesky_solves; assumption.
Qed.
Print Assumptions C82_cholesky.
Example C82_cholesky_ex : hermitian 2 (fun i j => if i =? j then RtoC 2 else if i <? j then (0, 1)%R else (0, -1)%R) /\
  definite 1 (fun _ _ => RtoC 4).
Proof.
  split.
  - intros [|[|i]] [|[|j]] I J; try lia; cbn; csolve.
  - intros x [[|i] [I X]]; [|lia]. unfold form. cbn [seq]. unfold Csum. cbn [map fold_right]. pose proof (Cnorm2_pos _ X) as P. unfold Cnorm2 in P. destruct (x 0) as [a b]. unfold Re, Cmult, Cplus, Cconj, RtoC, C0 in *. cbn [fst snd] in *. nra.
Qed.

(** Elimination: with n equations for n unknowns either the result satisfies them all, or the equations without the right hand sides have a solution other than zero. *)
Theorem C82_elimination : forall n (rows : list (list C)) (b : list C), length rows = n -> length b = n -> Forall (fun r => length r = n) rows ->
  let A := fun i j => nth j (nth i rows []) C0 in
  (forall x, solve n (combine rows b) = Some x -> length x = n /\ ~ singular n A /\ solves n A (fun i => nth i b C0) (fun i => nth i x C0)) /\
  (solve n (combine rows b) = None -> singular n A).
Proof.
  intros n rows b LR LB F A. assert (E : length (combine rows b) = n) by (rewrite combine_length; lia).
  assert (FC : Forall (fun e : equation => length (fst e) = n) (combine rows b)) by (apply Forall_forall; intros [r z] I; apply in_combine_l in I; rewrite Forall_forall in F; apply F, I).
  assert (FE : forall P : list C -> C -> Prop, Forall (fun e : equation => P (fst e) (snd e)) (combine rows b) <-> forall i, i < n -> P (nth i rows []) (nth i b C0)).
  { intros P. split.
    - intros G i I. rewrite Forall_forall in G. specialize (G (nth i (combine rows b) ([], C0))). rewrite combine_nth in G by lia. apply G. rewrite <- combine_nth by lia. apply nth_In. lia.
    - intros G. apply Forall_forall. intros e I. apply (In_nth _ _ ([], C0)) in I as [i [I <-]]. rewrite combine_nth by lia. apply G. lia. }
  assert (LI : forall i (x : list C), i < n -> length x = n -> lin (nth i rows []) x = Csum (fun j => (A i j * nth j x C0)%C) (seq 0 n)).
  { intros i x I LX. apply lin_sum; [|exact LX]. rewrite Forall_forall in F. apply F, nth_In. lia. }
  split.
  - intros x ES. destruct (solve_sound n _ x FC E ES) as [LX S]. split; [exact LX|]. split.
    + intros [z [Z SZ]]. apply vec_zero in Z. apply Z. apply (solve_unique n _ x _ FC ES); [apply vec_length|]. apply (FE (fun r _ => lin r (vec n z) = C0)). intros i I. rewrite LI by (auto using vec_length).
      etransitivity; [|exact (SZ i I)]. apply Csum_ext. intros j J. apply in_seq in J. rewrite nth_vec by lia. reflexivity.
    + intros i I. rewrite <- LI by assumption. apply (FE (fun r z => lin r x = z)); assumption.
  - intros ES. destruct (solve_none n _ FC E ES) as [x [LX [X S]]]. exists (fun i => nth i x C0). split; [apply vec_zero; rewrite vec_nth by exact LX; exact X|].
    intros i I. rewrite <- LI by assumption. apply (FE (fun r _ => lin r x = C0)); assumption.
Qed.
Print Assumptions C82_elimination.
Example C82_elimination_ex : length [[C0; C1]; [C1; C0]] = 2 /\ Forall (fun r => length r = 2) [[C0; C1]; [C1; C0]].
Proof. split; [reflexivity|repeat constructor]. Qed.

(** The direct solvers, with a real shift: Cholesky succeeds exactly for positive definite matrices, elimination exactly for regular ones, and what they return solves the system. With a
    positive shift both return the only solution. *)
Theorem C82_direct : forall n O, Forall (fun row => length row = n) O -> 0 < length O -> forall shift, Im shift = 0%R -> forall b, length b = n ->
  let run := fun use_cholesky => solve_directly use_cholesky n shift (jacobian_minus_mean n O) b in
  let S := shifted_covariance O shift in
  (forall u x, run u = Ok x -> length x = n /\ solves n S (fun i => nth i b C0) (fun i => nth i x C0)) /\
  ((exists x, run true = Ok x) <-> definite n S) /\ ((exists x, run false = Ok x) <-> ~ singular n S) /\
  (forall u e, run u = Err e -> e = GenericException) /\
  ((0 < Re shift)%R -> exists x, run true = Ok x /\ run false = Ok x /\ forall y, solves n S (fun i => nth i b C0) y -> forall i, i < n -> y i = nth i x C0).
Proof.
  intros n O F HB shift R b LB run S. destruct (direct_cholesky n O F HB shift b R LB) as [C1' C2']. destruct (direct_solve n O F HB shift b LB) as [D1 D2].
  change (entry_of O shift) with S in *.
  assert (DT : forall x, run true = Ok x -> definite n S).
  { intros x E. destruct (Classical_Prop.classic (definite n S)) as [D|D]; [exact D|]. specialize (C2' D). unfold run in E. rewrite E in C2'. discriminate. }
  assert (DF : forall x, run false = Ok x -> ~ singular n S) by (intros x E D; specialize (D2 D); unfold run in E; rewrite E in D2; discriminate).
  assert (SO : forall u x, run u = Ok x -> length x = n /\ solves n S (fun i => nth i b C0) (fun i => nth i x C0)).
  { intros [|] x E.
    - destruct (C1' (DT x E)) as [x' [E' Q]]. unfold run in E. rewrite E in E'. injection E' as ->. exact Q.
    - destruct (D1 (DF x E)) as [x' [E' Q]]. unfold run in E. rewrite E in E'. injection E' as ->. exact Q. }
  split; [exact SO|]. split; [split; [intros [x E]; apply (DT x E)|intros D; destruct (C1' D) as [x [E _]]; exists x; exact E]|].
  split; [split; [intros [x E]; apply (DF x E)|intros D; destruct (D1 D) as [x [E _]]; exists x; exact E]|].
  split.
  - intros u e E. unfold run, solve_directly in E. destruct u; [destruct (cholesky _ _)|destruct (solve _ _)]; try discriminate; injection E as <-; reflexivity.
  - intros P. pose proof (positive_s n O F HB shift R P) as D. change (entry_of O shift) with S in D. destruct (C1' D) as [x [E1 [L1 S1]]]. destruct (D1 (definite_regular n O HB shift D)) as [x2 [E2 [L2 S2]]].
    assert (U : forall y, solves n S (fun i => nth i b C0) y -> forall i, i < n -> y i = nth i x C0) by (intros y Y i I; apply (definite_unique n O HB shift (fun i => nth i b C0) y (fun i => nth i x C0) D Y S1 i I)).
    assert (X : x2 = x) by (apply (nth_ext _ _ C0 C0); [lia|]; intros i I; apply (U (fun i => nth i x2 C0) S2); lia). subst x2.
    exists x. split; [exact E1|]. split; [exact E2|exact U].
Qed.
Print Assumptions C82_direct.
Example C82_direct_ex : Forall (fun row => length row = 2) [[C1; C0]; [C0; C1]; [C1; (0, 1)%R]] /\ Im (RtoC (1 / 20)) = 0%R /\ (0 < Re (RtoC (1 / 20)))%R.
Proof. split; [repeat constructor|]. split; [reflexivity|]. cbn. lra. Qed.

(** Without a shift and with no more examples than weights, the matrix has no inverse: both direct solvers raise for every right hand side. *)
Theorem C82_no_shift_refuted : forall n O, Forall (fun row => length row = n) O -> 0 < length O <= n -> forall u b, length b = n ->
  solve_directly u n C0 (jacobian_minus_mean n O) b = Err GenericException.
Proof.
  intros n O F [HB LE] u b LB. pose proof (few_examples n O F HB LE) as SG. destruct u.
  - apply (direct_cholesky n O F HB C0 b eq_refl LB). intros D. apply (definite_regular n O HB C0 D SG).
  - apply (direct_solve n O F HB C0 b LB). exact SG.
Qed.
Print Assumptions C82_no_shift_refuted.
Example C82_no_shift_refuted_ex : Forall (fun row => length row = 2) [[C1; C0]; [C0; C1]] /\ 0 < length [[C1; C0]; [C0; C1]] <= 2.
Proof. split; [repeat constructor|cbn; lia]. Qed.

(** One step with a positive shift. Whatever the options, as long as the explicit jacobian is used or the gradient comes from the loss: the direct solvers give the solution, the iterative
    solver a vector close to it (given enough iterations and more than one weight). [O]: the derivatives; [jacobian_real] is needed for the explicit jacobian only. *)
Theorem C82_direction : forall o weights jacobian_real O loss_gradient targets fuel, let n := entries weights in
  Forall (fun row => length row = n) O -> 0 < length O -> Im (diag_shift o) = 0%R -> (0 < Re (diag_shift o))%R ->
  length loss_gradient = n -> length targets = length O ->
  ((iterative_solver o && compute_jvp_instead_of_full_jacobian o = true -> use_energy_loss o = true)) ->
  ((iterative_solver o && compute_jvp_instead_of_full_jacobian o = false -> get_predictions_jacobian jacobian_real = Ok O)) ->
  (iterative_solver o = true -> n <> 1 /\ n < fuel /\ (0 <= conjugate_gradient_tol o)%R /\ forall m, iterative_solver_max_iterations o = Some m -> n <= m) ->
  exists x y, direction fuel o true weights jacobian_real O loss_gradient targets = Ok (Some x) /\ length x = n /\ length y = n /\
    solves n (shifted_covariance O (diag_shift o)) (fun i => nth i (if use_energy_loss o then loss_gradient else energy_grad n O targets) C0) (fun i => nth i y C0) /\
    (iterative_solver o = false -> x = y) /\
    (iterative_solver o = true -> (Re (diag_shift o) * norm n (csub y x) <= conjugate_gradient_tol o * norm n (if use_energy_loss o then loss_gradient else energy_grad n O targets))%R).
Proof.
  intros o weights jr O lg targets fuel n F HB R P LL LT HJ HR HI. set (g := if use_energy_loss o then lg else energy_grad n O targets).
  assert (LG : length g = n) by (unfold g; destruct (use_energy_loss o); [exact LL|unfold energy_grad; apply adjoint_length]).
  destruct (C82_direct n O F HB (diag_shift o) R g LG) as [SO [_ [_ [_ U]]]]. destruct (U P) as [y [E1 [E2 _]]]. destruct (SO true y E1) as [LY SY].
  unfold direction. change (fold_right (fun w k => size_of w + k) 0 weights) with n. cbn [negb].
  destruct (iterative_solver o) eqn:IT; cbn [andb].
  - destruct (HI eq_refl) as [N1 [FU [T0 MI]]]. destruct (compute_jvp_instead_of_full_jacobian o) eqn:CJ; cbn [negb bind andb] in *.
    + rewrite (HJ eq_refl) in *. cbn [bind]. rewrite (proj2 (Nat.eqb_neq _ _) N1).
      assert (G : g = lg) by (unfold g; rewrite (HJ eq_refl); reflexivity). rewrite G in *.
      destruct (iterates n O F HB (diag_shift o) R P (product_via_jvp n (diag_shift o) O) lg fuel (conjugate_gradient_tol o) (iterative_solver_max_iterations o)) as [s [E [LX B]]]; auto.
      { intros v LV. apply (via_jvp n O F HB); exact LV. }
      rewrite E. exists (cg_x s), y. split; [reflexivity|]. split; [exact LX|]. split; [exact LY|]. split; [exact SY|]. split; [discriminate|]. intros _. apply B; assumption.
    + rewrite (HR eq_refl). cbn [bind].
      assert (G : (if use_energy_loss o then Ok lg else Ok (adjoint_matvec n (jacobian_minus_mean n O) (map Cconj targets))) = Ok g) by (unfold g; destruct (use_energy_loss o); reflexivity).
      rewrite G. cbn [bind]. unfold solve_iteratively. rewrite (proj2 (Nat.eqb_neq _ _) N1).
      destruct (iterates n O F HB (diag_shift o) R P (covariance_vector_product n (diag_shift o) (jacobian_minus_mean n O)) g fuel (conjugate_gradient_tol o) (iterative_solver_max_iterations o)) as [s [E [LX B]]]; auto.
      rewrite E. cbn [bind option_map fst]. exists (cg_x s), y. split; [reflexivity|]. split; [exact LX|]. split; [exact LY|]. split; [exact SY|]. split; [discriminate|]. intros _. apply B; assumption.
  - cbn [negb]. rewrite (HR eq_refl). cbn [bind].
    assert (G : (if use_energy_loss o then Ok lg else Ok (adjoint_matvec n (jacobian_minus_mean n O) (map Cconj targets))) = Ok g) by (unfold g; destruct (use_energy_loss o); reflexivity).
    rewrite G. cbn [bind]. exists y, y. destruct (use_cholesky o); rewrite ?E1, ?E2; cbn [bind]; (split; [reflexivity|]); (split; [exact LY|]); (split; [exact LY|]); (split; [exact SY|]); split; auto; discriminate.
Qed.
Print Assumptions C82_direction.
Example C82_direction_ex : let O := [[C1; C0]; [C0; C1]] in Forall (fun row => length row = entries [[2]]) O /\
  get_predictions_jacobian (Some [(2, [1; 0; 0; 1]%R); (2, [0; 0; 0; 0]%R)]) = Ok O.
Proof. split; [repeat constructor|reflexivity]. Qed.

(** What a step asserts: the parameters are those of the model, and there is a jacobian unless the solver is iterative and works without it. *)
Theorem C82_assertions : forall fuel o weights O loss_gradient targets,
  (forall jacobian_real, direction fuel o false weights jacobian_real O loss_gradient targets = Err AssertionError) /\
  (iterative_solver o && compute_jvp_instead_of_full_jacobian o = false -> direction fuel o true weights None O loss_gradient targets = Err AssertionError) /\
  (iterative_solver o && compute_jvp_instead_of_full_jacobian o = true -> forall j j', direction fuel o true weights j O loss_gradient targets = direction fuel o true weights j' O loss_gradient targets).
Proof.
  intros fuel o weights O lg targets. unfold direction. cbn [negb]. split; [reflexivity|]. split; intros ->; reflexivity.
Qed.
Print Assumptions C82_assertions.
Example C82_assertions_ex : direction 5 {| diag_shift := RtoC (1 / 20); iterative_solver := false; compute_jvp_instead_of_full_jacobian := true; use_energy_loss := true; add_s_matrix_stats := false;
  conjugate_gradient_tol := 0; iterative_solver_max_iterations := None; use_cholesky := true |} true [[2]] None [] [] [] = Err AssertionError.
Proof. reflexivity. Qed.

(** The statistics of the matrix, given its eigenvalues: none is negative, fewer are different from zero than there are examples, and the reported rank counts those above the bound
    epsilon * number of weights * largest entry. The reported smallest eigenvalue is the smallest of these and is missing (infinite) when there are none. *)
Theorem C82_statistics : forall n O, Forall (fun row => length row = n) O -> 0 < length O -> forall eigvals, spectrum n (shifted_covariance O C0) eigvals ->
  forall epsilon, (0 <= epsilon)%R -> let s := gram_matrix n (jacobian_minus_mean n O) in
  (forall k l, k < n -> l < n -> nth l (nth k s []) C0 = covariance (length O) (fun i => nth k (nth i O []) C0) (fun i => nth l (nth i O []) C0)) /\
  (forall e, In e eigvals -> (0 <= e)%R) /\
  length (filter (fun e => if Req_EM_T e 0 then false else true) eigvals) < length O /\
  exists bound, (0 <= bound)%R /\ (forall k l, k < n -> l < n -> (epsilon * INR n * Cmod (nth l (nth k s []) C0) <= bound)%R) /\
    (0 < n -> exists k l, k < n /\ l < n /\ bound = (epsilon * INR n * Cmod (nth l (nth k s []) C0))%R) /\
    fst (s_matrix_stats epsilon n s eigvals) = length (filter (fun e => if Rlt_dec bound e then true else false) eigvals) /\
    match snd (s_matrix_stats epsilon n s eigvals) with
    | None => forall e, In e eigvals -> (e <= bound)%R
    | Some m => In m eigvals /\ (bound < m)%R /\ forall e, In e eigvals -> (bound < e)%R -> (m <= e)%R
    end.
Proof.
  intros n O F HB eigvals SP epsilon EP s.
  assert (EN : forall k l, k < n -> l < n -> nth l (nth k s []) C0 = covariance (length O) (fun i => nth k (nth i O []) C0) (fun i => nth l (nth i O []) C0)).
  { intros k l K L. unfold s. rewrite gram_eq, (matrix_covariance n O F HB) by assumption. destruct (k =? l); ring. }
  split; [exact EN|]. assert (NN : forall e, In e eigvals -> (0 <= e)%R).
  { intros e I. apply (In_nth _ _ 0%R) in I as [p [P <-]]. apply (eigen_nonneg n O F HB eigvals SP). destruct SP as [LE _]. lia. }
  split; [exact NN|]. split.
  { pose proof (eigen_count n O F HB eigvals SP) as G. destruct SP as [LE _]. rewrite <- (map_nth_range eigvals 0%R). rewrite filter_map_length, LE. exact G. }
  exists (epsilon * INR n * reduce_max (map Cmod (concat s)))%R.
  assert (N0 : (0 <= INR n)%R) by apply pos_INR. assert (EN0 : (0 <= epsilon * INR n)%R) by (apply Rmult_le_pos; assumption).
  assert (MX : forall l : list R, (0 <= reduce_max l)%R /\ forall x, In x l -> (x <= reduce_max l)%R).
  { induction l as [|x l [I1 I2]]; [split; [apply Rle_refl|intros x []]|]. cbn [reduce_max fold_right]. fold (reduce_max l). split; [eapply Rle_trans; [exact I1|apply Rmax_r]|].
    intros y [<-|Y]; [apply Rmax_l|]. eapply Rle_trans; [apply I2, Y|apply Rmax_r]. }
  assert (MI : forall l : list R, (forall x, In x l -> (0 <= x)%R) -> l <> [] -> In (reduce_max l) l).
  { induction l as [|x l IH]; [contradiction|]. intros P _. cbn [reduce_max fold_right]. fold (reduce_max l). destruct l as [|y l].
    - cbn [reduce_max fold_right]. left. symmetry. apply Rmax_left. apply P. left. reflexivity.
    - unfold Rmax. destruct (Rle_dec x (reduce_max (y :: l))); [right; apply IH; [intros z Z; apply P; right; exact Z|discriminate]|left; reflexivity]. }
  assert (SL : length s = n) by (unfold s, gram_matrix, range; rewrite map_length, seq_length; reflexivity).
  assert (SR : forall k, k < n -> length (nth k s []) = n) by (intros k K; unfold s, gram_matrix, range; rewrite nth_map_seq by exact K; rewrite map_length, seq_length; reflexivity).
  assert (CS : forall k l, k < n -> l < n -> In (nth l (nth k s []) C0) (concat s)) by (intros k l K L; apply in_concat; exists (nth k s []); split; apply nth_In; rewrite ?SL, ?SR; assumption).
  set (mx := reduce_max (map Cmod (concat s))). assert (M0 : (0 <= mx)%R) by apply (proj1 (MX _)).
  assert (B0 : (0 <= epsilon * INR n * mx)%R) by (apply Rmult_le_pos; assumption). split; [exact B0|]. split.
  { intros k l K L. apply Rmult_le_compat_l; [exact EN0|]. apply (proj2 (MX _)). apply in_map, CS; assumption. }
  split.
  { intros P. assert (I : In mx (map Cmod (concat s))).
    { apply MI; [intros x X; apply in_map_iff in X as [z [<- _]]; unfold Cmod; apply sqrt_pos|]. intros E. apply map_eq_nil in E. specialize (CS 0 0 P P). rewrite E in CS. exact CS. }
    apply in_map_iff in I as [z [EZ I]]. apply in_concat in I as [row [I1 I2]]. apply (In_nth _ _ []) in I1 as [k [K <-]]. rewrite SL in K. apply (In_nth _ _ C0) in I2 as [l [L <-]]. rewrite SR in L by exact K.
    exists k, l. split; [exact K|]. split; [exact L|]. rewrite EZ. reflexivity. }
  set (bound := (epsilon * INR n * mx)%R) in *. unfold s_matrix_stats. fold mx. fold bound.
  assert (AE : map Rabs eigvals = eigvals) by (transitivity (map (fun e => e) eigvals); [apply map_ext_in; intros e I; apply Rabs_right, Rle_ge, NN, I|apply map_id]). rewrite AE. cbn [fst snd]. split.
  - rewrite filter_filter. f_equal. apply filter_ext. intros e. destruct (Rlt_dec bound e) as [Q|Q]; [|apply andb_false_r]. destruct (Req_EM_T e 0) as [Z|Z]; [|reflexivity]. exfalso. lra.
  - set (fl := filter _ eigvals).
    assert (FI : forall e, In e fl <-> In e eigvals /\ (bound < e)%R) by (intros e; unfold fl; rewrite filter_In; destruct (Rlt_dec bound e); intuition; discriminate).
    assert (MN : forall (l : list R) x, In (fold_right Rmin x l) (x :: l) /\ forall y, In y (x :: l) -> (fold_right Rmin x l <= y)%R).
    { induction l as [|a l IH]; intros x; [split; [left; reflexivity|intros y [<-|[]]; apply Rle_refl]|]. cbn [fold_right]. destruct (IH x) as [I1 I2]. split.
      - unfold Rmin at 1. destruct (Rle_dec a (fold_right Rmin x l)); [right; left; reflexivity|]. destruct I1 as [I1|I1]; [left; exact I1|right; right; exact I1].
      - intros y Y. destruct Y as [<-|[<-|Y]]; [eapply Rle_trans; [apply Rmin_r|apply I2; left; reflexivity]|apply Rmin_l|eapply Rle_trans; [apply Rmin_r|apply I2; right; exact Y]]. }
    destruct fl as [|x t] eqn:EF; cbn [reduce_min].
    + intros e I. destruct (Rlt_dec bound e) as [Q|Q]; [|lra]. exfalso. apply (proj2 (FI e)). split; assumption.
    + destruct (MN t x) as [I1 I2]. apply FI in I1. split; [apply I1|]. split; [apply I1|]. intros e I Q. apply I2, FI. split; assumption.
Qed.
Print Assumptions C82_statistics.
Example C82_statistics_ex : spectrum 1 (shifted_covariance [[C1]; [(-1, 0)%R]] C0) [1%R].
Proof.
  split; [reflexivity|]. exists (fun _ _ => C1). split.
  - intros [|p] [|q] P Q; try lia. cbn. unfold Csum. cbn. csolve.
  - intros [|p] [|i] P I; try lia. cbn. unfold shifted_covariance, covariance, average, Csum. cbn. unfold Cdiv, Cinv, Cnorm2, RtoC, Cplus, Cmult, Cconj, Cminus, Copp, C1, C0. cbn. f_equal; field.
Qed.

(** With no more examples than weights the smallest eigenvalue is zero, but the reported one never is. *)
Theorem C82_smallest_eigenvalue_refuted : forall n O, Forall (fun row => length row = n) O -> 0 < length O <= n -> forall eigvals, spectrum n (shifted_covariance O C0) eigvals ->
  In 0%R eigvals /\ forall epsilon, (0 <= epsilon)%R -> snd (s_matrix_stats epsilon n (gram_matrix n (jacobian_minus_mean n O)) eigvals) <> Some 0%R.
Proof.
  intros n O F [HB LE] eigvals SP. split.
  - destruct (zero_eigenvalue n O F HB eigvals SP LE) as [p [P E]]. rewrite <- E. apply nth_In. destruct SP as [L _]. lia.
  - intros epsilon EP E. destruct (C82_statistics n O F HB eigvals SP epsilon EP) as [_ [_ [_ [bound [B0 [_ [_ [_ M]]]]]]]]. rewrite E in M. destruct M as [_ [M _]]. lra.
Qed.
Print Assumptions C82_smallest_eigenvalue_refuted.
Example C82_smallest_eigenvalue_refuted_ex : Forall (fun row => length row = 2) [[C1; C0]; [C0; C1]] /\ 0 < length [[C1; C0]; [C0; C1]] <= 2 /\ spectrum 1 (shifted_covariance [[C1]] C0) [0%R].
Proof.
  split; [repeat constructor|]. split; [cbn; lia|]. split; [reflexivity|]. exists (fun _ _ => C1). split.
  - intros [|p] [|q] P Q; try lia. cbn. unfold Csum. cbn. csolve.
  - intros [|p] [|i] P I; try lia. cbn. unfold shifted_covariance, covariance, average, Csum. cbn. unfold Cdiv, Cinv, Cnorm2, RtoC, Cplus, Cmult, Cconj, Cminus, Copp, C1, C0. cbn. f_equal; field.
Qed.

(** The metrics: two for the iterative solver, two for a direct solver with statistics, none otherwise; statistics that are asked for together with the iterative solver do not appear. *)
Theorem C82_metrics : forall o,
  (In "stochastic_reconfiguration/conjugate_gradient_iterations" (metrics o) <-> iterative_solver o = true) /\
  (In "stochastic_reconfiguration/conjugate_gradient_residual_norm" (metrics o) <-> iterative_solver o = true) /\
  (In "stochastic_reconfiguration/s_matrix_rank" (metrics o) <-> iterative_solver o = false /\ add_s_matrix_stats o = true) /\
  (In "stochastic_reconfiguration/s_matrix_min_eigval" (metrics o) <-> iterative_solver o = false /\ add_s_matrix_stats o = true) /\
  NoDup (metrics o) /\ length (metrics o) = if iterative_solver o || add_s_matrix_stats o then 2 else 0.
Proof.
  intros o. unfold metrics. destruct (iterative_solver o), (add_s_matrix_stats o); cbn [In orb];
    (split; [intuition congruence|]); (split; [intuition congruence|]); (split; [intuition congruence|]); (split; [intuition congruence|]); (split; [|reflexivity]);
    repeat (constructor; [cbn [In]; intuition congruence|]); constructor.
Qed.
Print Assumptions C82_metrics.
Example C82_metrics_ex : metrics {| diag_shift := RtoC (1 / 20); iterative_solver := false; compute_jvp_instead_of_full_jacobian := false; use_energy_loss := false; add_s_matrix_stats := true;
  conjugate_gradient_tol := 0; iterative_solver_max_iterations := None; use_cholesky := true |} = ["stochastic_reconfiguration/s_matrix_rank"; "stochastic_reconfiguration/s_matrix_min_eigval"].
Proof. reflexivity. Qed.

(** The test of the version compares characters. It is right for versions 1.1x and for versions with a first digit above 1, *)
Theorem C82_version : forall c rest,
  is_new ("1.1" ++ String c rest) = (52 <=? nat_of_ascii c) /\ (49 < nat_of_ascii c -> is_new (String c rest) = true).
Proof.
  intros c rest. split.
  - unfold is_new. cbn [append string_le]. change (nat_of_ascii "4"%char) with 52. change (nat_of_ascii "1"%char) with 49. change (nat_of_ascii "."%char) with 46. rewrite !Nat.ltb_irrefl.
    destruct (Nat.ltb_spec 52 (nat_of_ascii c)) as [H|H]; [symmetry; apply Nat.leb_le; lia|]. destruct (Nat.ltb_spec (nat_of_ascii c) 52) as [H'|H']; symmetry; [apply Nat.leb_gt; lia|apply Nat.leb_le; lia].
  - intros H. unfold is_new. cbn [string_le]. change (nat_of_ascii "1"%char) with 49. rewrite (proj2 (Nat.ltb_lt _ _) H). reflexivity.
Qed.
Print Assumptions C82_version.
Example C82_version_ex : is_new "1.15.0" = true /\ is_new "1.12.0" = false /\ is_new "2.1.0" = true.
Proof. repeat split; reflexivity. Qed.
(** but versions 1.2 to 1.9 are taken for later than 1.14, and the constructor then calls a method that they do not have. *)
Theorem C82_version_refuted : forall c rest, 49 < nat_of_ascii c -> is_new ("1." ++ String c rest) = true /\ set_learning_rate ("1." ++ String c rest) false = Err AttributeError.
Proof.
  intros c rest H. assert (E : is_new ("1." ++ String c rest) = true).
  { unfold is_new. cbn [append string_le]. change (nat_of_ascii "1"%char) with 49. change (nat_of_ascii "."%char) with 46. rewrite !Nat.ltb_irrefl. rewrite (proj2 (Nat.ltb_lt _ _) H). reflexivity. }
  split; [exact E|]. unfold set_learning_rate. rewrite E. reflexivity.
Qed.
Print Assumptions C82_version_refuted.
Example C82_version_refuted_ex : set_learning_rate "1.9.0" false = Err AttributeError.
Proof. reflexivity. Qed.
