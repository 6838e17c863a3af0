(** C46-C48: complex optimizer, conjugate gradient, stochastic reconfiguration. *)
From Coq Require Import List ZArith Reals Bool Arith Lia Lra.
From Verif Require Import Base Cplx ComplexModel ObservableModel ReconfigurationModel ReconfigurationSpec ReconfigurationVecProofs ReconfigurationCgProofs
  ReconfigurationProofs.
Import ListNotations.

(** * C46 *)

(** Cutting a column and putting the tensors on top of each other gives the column; *)
Theorem C46_cut_and_stack : forall A shapes (col : list A), length col = entries shapes ->
  exists ts, column_to_tensors shapes col = Ok ts /\ map fst ts = shapes /\ Forall well_shaped ts /\ tensors_to_column ts = col.
Proof.
  intros A shapes col L. destruct (cut_ok shapes col) as (ts & E & F & G & Q); [change (total shapes) with (entries shapes); lia|].
  exists ts. rewrite c2t_cut. split; [exact E|]. split; [exact F|]. split; [exact G|]. unfold tensors_to_column. rewrite Q.
  apply firstn_all2. change (total shapes) with (entries shapes). lia.
Qed.
Print Assumptions C46_cut_and_stack.
Example C46_cut_and_stack_ex : entries [[2; 2]; [1]; []] = length [1; 2; 3; 4; 5; 6] /\
  column_to_tensors [[2; 2]; [1]; []] [1; 2; 3; 4; 5; 6] = Ok [([2; 2], [1; 2; 3; 4]); ([1], [5]); ([], [6])].
Proof. split; reflexivity. Qed.

(** and the other way round. *)
Theorem C46_stack_and_cut : forall A (ts : list (list nat * list A)), Forall well_shaped ts ->
  column_to_tensors (map fst ts) (tensors_to_column ts) = Ok ts.
Proof.
  intros A ts F. rewrite c2t_cut. unfold tensors_to_column. rewrite <- (app_nil_r (concat _)). now apply cut_back.
Qed.
Print Assumptions C46_stack_and_cut.
Example C46_stack_and_cut_ex : Forall well_shaped [([2; 1], [7; 8]); ([0], []); ([1], [9])].
Proof. repeat constructor. Qed.

(** A column that is too short is rejected, surplus entries are ignored. *)
Theorem C46_lengths : forall A shapes (col tail : list A),
  (length col < entries shapes -> column_to_tensors shapes col = Err ValueError) /\
  (length col = entries shapes -> column_to_tensors shapes (col ++ tail) = column_to_tensors shapes col).
Proof.
  intros A shapes col tail. rewrite !c2t_cut. split.
  - apply cut_short.
  - intros L. destruct (cut_ok shapes col) as (ts & E & F & G & Q); [change (total shapes) with (entries shapes); lia|].
    rewrite E, <- F. rewrite firstn_all2 in Q by (change (total shapes) with (entries shapes); lia). rewrite <- Q. now apply cut_back.
Qed.
Print Assumptions C46_lengths.
Example C46_lengths_ex : length [1; 2] < entries [[3]] /\ length [1; 2; 3] = entries [[3]].
Proof. cbn. lia. Qed.

(** [apply_complex_gradient] adds lr times the gradient to the complex weights as the layers read them, and leaves the shapes alone. *)
Theorem C46_gradient_step : forall lr reals imags gradient, map fst reals = map fst imags -> Forall well_shaped reals -> Forall well_shaped imags ->
  length gradient = entries (map fst reals) ->
  exists reals' imags', apply_complex_gradient lr reals imags gradient = Ok (reals', imags') /\
    map fst reals' = map fst reals /\ map fst imags' = map fst imags /\
    forall i, nth i (concat (map2 (fun r i => complex_weight_value (snd r, snd i)) reals' imags')) C0 =
      (nth i (concat (map2 (fun r i => complex_weight_value (snd r, snd i)) reals imags)) C0 + RtoC lr * nth i gradient C0)%C.
Proof.
  intros lr reals imags g Sh Fr Fi L. destruct (apply_gradient lr reals imags g Sh Fr Fi L) as (r' & i' & E & S1 & S2 & Q).
  exists r', i'. split; [exact E|]. split; [exact S1|]. split; [exact S2|]. intros i.
  change (concat (map2 (fun r i => complex_weight_value (snd r, snd i)) r' i')) with (complex_column r' i').
  change (concat (map2 (fun r i => complex_weight_value (snd r, snd i)) reals imags)) with (complex_column reals imags).
  rewrite Q, nth_cadd, nth_cscale; [reflexivity|]. rewrite cscale_length, L.
  rewrite concat_pairs by now apply Forall2_shapes. rewrite Base.map2_length, !concat_total by assumption. rewrite Sh.
  change (total (map fst imags)) with (entries (map fst imags)). lia.
Qed.
Print Assumptions C46_gradient_step.
Example C46_gradient_step_ex : map fst [([2], [1; 2]%R); ([], [3]%R)] = map fst [([2], [4; 5]%R); ([], [6]%R)] /\
  Forall well_shaped [([2], [1; 2]%R); ([], [3]%R)] /\ Forall well_shaped [([2], [4; 5]%R); ([], [6]%R)] /\
  length [C1; C0; C1] = entries (map fst [([2], [1; 2]%R); ([], [3]%R)]).
Proof. split; [reflexivity|]. split; [repeat constructor|]. split; [repeat constructor|reflexivity]. Qed.

(** The direction given to the forward mode product: cut at the shapes of the pairs of real and imaginary weights, it is the given vector, weight by weight. *)
Theorem C46_direction : forall shapes (v : list C), length v = entries shapes ->
  exists col ts, from_complex_vector_to_tensors shapes v = Ok col /\ column_to_tensors (flat_map (fun s => [s; s]) shapes) col = Ok ts /\
    map fst ts = flat_map (fun s => [s; s]) shapes /\ concat (to_complex_tensors (map snd ts)) = v.
Proof. exact direction. Qed.
Print Assumptions C46_direction.
Example C46_direction_ex : length [(1, 2)%R; (3, 4)%R; (5, 6)%R] = entries [[2]; [1; 1]] /\
  from_complex_vector_to_tensors [[2]; [1; 1]] [(1, 2)%R; (3, 4)%R; (5, 6)%R] = Ok [1; 3; 2; 4; 5; 6]%R.
Proof. split; reflexivity. Qed.

(** The optimizer can be constructed iff every layer with parameters is one of the complex layers; the weights then come in the order of the layers. *)
Theorem C46_needs_complex_layers : forall part layers,
  (forall ws, get_model_weights part layers = Ok ws <->
     (forall l, In l layers -> params l <> 0 -> complex_weights l <> None) /\
     ws = flat_map (fun l => if params l =? 0 then [] else match complex_weights l with Some w => part w | None => [] end) layers) /\
  (forall e, get_model_weights part layers = Err e -> e = AttributeError).
Proof.
  intros part layers. rewrite model_weights.
  destruct (forallb _ layers) eqn:F.
  - split; [|discriminate]. intros ws. split.
    + intros H. injection H as <-. split; [|reflexivity]. intros l Hl P N. rewrite forallb_forall in F. specialize (F l Hl).
      rewrite N in F. rewrite orb_false_r in F. apply Nat.eqb_eq in F. congruence.
    + intros [_ ->]. reflexivity.
  - split; [|intros e H; injection H as <-; reflexivity]. intros ws. split; [discriminate|]. intros [H _]. exfalso.
    assert (forallb (fun l => (params l =? 0) || match complex_weights l with Some _ => true | None => false end) layers = true); [|congruence].
    apply forallb_forall. intros l Hl. destruct (Nat.eqb_spec (params l) 0) as [|P]; [reflexivity|]. specialize (H l Hl P).
    destruct (complex_weights l); [reflexivity|congruence].
Qed.
Print Assumptions C46_needs_complex_layers.
Example C46_needs_complex_layers_ex :
  get_model_weights fst [{| params := 4; complex_weights := Some ([([2], [1; 2]%R)], [([2], [3; 4]%R)]) |}; {| params := 0; complex_weights := None |}] =
    Ok [([2], [1; 2]%R)] /\
  get_model_weights fst [{| params := 4; complex_weights := None |}] = Err AttributeError.
Proof. split; reflexivity. Qed.

(** * C47 *)

(** Whatever the (linear) operator and the preconditioner: the reported residual is the residual of the returned vector, the number of iterations
    respects the limit, and a run that stopped before the limit has reached the tolerance. *)
Theorem C47_report : forall n A M b x0, linear_map n A -> (forall m, M = Some m -> forall v, length v = n -> length (m v) = n) -> length b = n ->
  (forall x, x0 = Some x -> length x = n) -> forall max_iter fuel tol s r0,
  residual_of n A b (match x0 with None => zero n | Some x => x end) r0 ->
  conjugate_gradient A M max_iter fuel b x0 tol = Some s ->
  length (cg_x s) = n /\ residual_of n A b (cg_x s) (cg_r s) /\ (forall m, max_iter = Some m -> cg_i s <= m) /\
  ((forall m, max_iter = Some m -> cg_i s < m) -> (norm n (cg_r s) <= tol * norm n r0)%R).
Proof. exact cg_report_spec. Qed.
Print Assumptions C47_report.
Lemma identity_linear n : linear_map n (fun v => v).
Proof. split; [auto|]. intros a b x y z _ _ _ H i Hi. now apply H. Qed.
Example C47_report_ex : linear_map 2 (fun v => v) /\ residual_of 2 (fun v => v) [C1; C0] (zero 2) [C1; C0] /\
  conjugate_gradient (fun v => v) None (Some 0) 1 [C1; C0] None (1 / 10) =
    Some {| cg_i := 0; cg_x := zero 2; cg_r := [C1; C0]; cg_p := [C1; C0]; cg_gamma := dot [C1; C0] [C1; C0] |}.
Proof.
  split; [apply identity_linear|]. split; [|reflexivity]. split; [reflexivity|].
  intros [|[|i]] H; [unfold zero; cbn [nth repeat]; csolve|unfold zero; cbn [nth repeat]; csolve|lia].
Qed.

(** With a limit the loop ends. *)
Theorem C47_terminates : forall A M b x0 m fuel tol, m < fuel -> exists s, conjugate_gradient A M (Some m) fuel b x0 tol = Some s.
Proof.
  intros A M b x0 m fuel tol H. unfold conjugate_gradient. cbv zeta.
  apply (loop_ends A M (Some m) (cg_start A M b x0) _ m) with (i := 0); [|lia]. unfold stopping_criterion. now rewrite Nat.ltb_irrefl.
Qed.
Print Assumptions C47_terminates.
Example C47_terminates_ex : 20 < 21. Proof. lia. Qed.

(** In exact arithmetic a self-adjoint positive definite system of dimension n is solved, without a preconditioner or with any self-adjoint positive
    definite one, for every tolerance including zero and with or without a limit of at least n, after at most n iterations. *)
Theorem C47_n_iterations : forall n A M b x0, linear_map n A -> self_adjoint n A -> positive_definite n A ->
  (forall m, M = Some m -> (forall v, length v = n -> length (m v) = n) /\ self_adjoint n m /\ positive_definite n m) -> length b = n ->
  (forall x, x0 = Some x -> length x = n) -> forall max_iter fuel tol r0, (0 <= tol)%R -> n < fuel -> (forall m, max_iter = Some m -> n <= m) ->
  residual_of n A b (match x0 with None => zero n | Some x => x end) r0 ->
  exists s, conjugate_gradient A M max_iter fuel b x0 tol = Some s /\ cg_i s <= n /\ (norm n (cg_r s) <= tol * norm n r0)%R.
Proof. exact cg_converges_spec. Qed.
Print Assumptions C47_n_iterations.
Example C47_n_iterations_ex : linear_map 2 (fun v => v) /\ self_adjoint 2 (fun v => v) /\ positive_definite 2 (fun v => v) /\
  let m := cscale (RtoC 2) in (forall v, length v = 2 -> length (m v) = 2) /\ self_adjoint 2 m /\ positive_definite 2 m.
Proof.
  assert (P : positive_definite 2 (fun v => v)) by (intros x L N; now apply inner_self_pos).
  split; [apply identity_linear|]. split; [intros x y _ _; reflexivity|]. split; [exact P|].
  assert (E : forall x y, inner 2 x (cscale (RtoC 2) y) = (RtoC 2 * inner 2 x y)%C).
  { intros x y. unfold inner. rewrite <- Csum_scal. apply Csum_ext. intros i _. rewrite nth_cscale. ring. }
  split; [intros v L; now rewrite cscale_length|]. split.
  - intros x y _ _. rewrite E. rewrite <- (inner_conj 2 y (cscale (RtoC 2) x)), E, <- (inner_conj 2 x y). csolve.
  - intros x L N. rewrite E. specialize (P x L N). destruct (inner 2 x x) as [u w]. unfold Re, Cmult, RtoC in *. cbn [fst snd] in *. lra.
Qed.

(** * C48 *)

(** The matrix is the covariance of the logarithmic derivatives plus the shift on the diagonal, *)
Theorem C48_matrix_is_covariance : forall n O, Forall (fun row => length row = n) O -> 0 < length O -> forall shift k l, k < n -> l < n ->
  nth l (nth k (s_matrix n shift (jacobian_minus_mean n O)) []) C0 =
  (covariance (length O) (fun i => nth k (nth i O []) C0) (fun i => nth l (nth i O []) C0) + (if k =? l then shift else C0))%C.
Proof. exact matrix_covariance. Qed.
Print Assumptions C48_matrix_is_covariance.
Example C48_matrix_is_covariance_ex : Forall (fun row => length row = 2) [[C1; C0]; [C0; C1]; [C1; C1]] /\ 0 < length [[C1; C0]; [C0; C1]; [C1; C1]].
Proof. split; [repeat constructor|cbn; lia]. Qed.

(** the right hand side is the covariance with the local energies when the targets are the loss coefficients, *)
Theorem C48_gradient_is_covariance : forall n O, Forall (fun row => length row = n) O -> 0 < length O -> forall local k, length local = length O -> k < n ->
  nth k (energy_grad n O (loss_coefficients (length O) (Cmean local) local)) C0 =
  covariance (length O) (fun i => nth k (nth i O []) C0) (fun i => nth i local C0).
Proof. exact gradient_covariance. Qed.
Print Assumptions C48_gradient_is_covariance.
Example C48_gradient_is_covariance_ex : Forall (fun row => length row = 1) [[C1]; [C0]] /\ length [C0; C1] = length [[C1]; [C0]].
Proof. split; [repeat constructor|reflexivity]. Qed.

(** and the product with the explicit matrix, the product of the iterative solver and the product from derivatives are the same linear map. *)
Theorem C48_products_agree : forall n O, Forall (fun row => length row = n) O -> 0 < length O -> forall shift v, length v = n ->
  covariance_vector_product n shift (jacobian_minus_mean n O) v = matvec (s_matrix n shift (jacobian_minus_mean n O)) v /\
  product_via_jvp n shift O v = matvec (s_matrix n shift (jacobian_minus_mean n O)) v.
Proof.
  intros n O F HB shift v L. rewrite (explicit_product n _ (J_rows n O F) shift v L). split; [reflexivity|].
  exact (via_jvp n O F HB shift v L).
Qed.
Print Assumptions C48_products_agree.
Example C48_products_agree_ex : Forall (fun row => length row = 2) [[C1; C0]; [C0; C1]] /\ length [C1; C1] = 2.
Proof. split; [repeat constructor|reflexivity]. Qed.

(** For a real positive shift it is self-adjoint and positive definite (bounded below by the shift), so that every right hand side has exactly one
    solution, and the error of an approximate solution is at most its residual divided by the shift. *)
Theorem C48_positive_definite : forall n O, Forall (fun row => length row = n) O -> 0 < length O ->
  forall shift, Im shift = 0%R -> (0 < Re shift)%R ->
  let A := matvec (s_matrix n shift (jacobian_minus_mean n O)) in
  linear_map n A /\ self_adjoint n A /\ positive_definite n A /\
  (forall x, length x = n -> (Re shift * (norm n x * norm n x) <= Re (inner n x (A x)))%R) /\
  (forall b, length b = n -> exists x, length x = n /\ A x = b /\ forall y, length y = n -> A y = b -> y = x).
Proof.
  intros n O F HB shift Hs P A. set (J := jacobian_minus_mean n O).
  pose proof (J_rows n O F) as FJ. assert (HJ : 0 < length J) by (unfold J; rewrite (J_length n O); exact HB).
  assert (E : forall v, length v = n -> A v = covariance_vector_product n shift J v) by (intros v L; exact (explicit_product n J FJ shift v L)).
  destruct (product_linear n J FJ shift) as [L1 L2].
  split; [split; [intros x L; rewrite E by exact L; now apply L1|]|].
  { intros a b x y z Lx Ly Lz H i Hi. rewrite !E by assumption. now apply (L2 a b x y z). }
  split. { intros x y Lx Ly. rewrite !E by assumption. now apply (product_self_adjoint n J FJ shift HJ Hs). }
  split. { intros x L N. rewrite E by assumption. now apply (product_positive n J FJ shift HJ Hs P). }
  split. { intros x L. rewrite E by assumption. rewrite norm_sq. now apply (product_lower n J FJ shift HJ). }
  intros b Lb. destruct (solution_exists n J FJ shift HJ b Hs P Lb) as (x & Lx & Ex). exists x. split; [exact Lx|]. split; [now rewrite E|].
  intros y Ly Ey. rewrite E in Ey by assumption. now apply (solution_unique n J FJ shift HJ b).
Qed.
Print Assumptions C48_positive_definite.
Example C48_positive_definite_ex : Im (RtoC (1 / 20)) = 0%R /\ (0 < Re (RtoC (1 / 20)))%R /\ Forall (fun row => length row = 2) [[C1; C1]; [C1; C1]].
Proof. split; [reflexivity|]. split; [unfold Re, RtoC; cbn [fst]; lra|repeat constructor]. Qed.

(** Without a shift the matrix may be singular: with one example it is the zero matrix. *)
Theorem C48_zero_shift_refuted : exists n O, Forall (fun row => length row = n) O /\ 0 < length O /\
  ~ positive_definite n (matvec (s_matrix n C0 (jacobian_minus_mean n O))).
Proof.
  exists 1, [[C1]]. split; [repeat constructor|]. split; [cbn; lia|]. intros P.
  specialize (P [C1] eq_refl). apply (Rlt_irrefl 0). replace 0%R with (Re (inner 1 [C1] (matvec (s_matrix 1 C0 (jacobian_minus_mean 1 [[C1]])) [C1]))) at 2.
  - apply P. unfold zero. cbn [repeat]. intros E. injection E as E. lra.
  - cbn. unfold Cdiv, Cinv, Cnorm2, RtoC, Re, Csum, Cplus, Cmult, Cconj, Cminus, C1, C0. cbn. field. 
Qed.
Print Assumptions C48_zero_shift_refuted.

(** The iterative solver with the given tolerance and a limit of at least n iterations: for n <> 1 it returns, after at most n iterations, a vector
    whose distance to the solution is at most tol * norm b / shift. *)
Theorem C48_iterative_solver : forall n O, Forall (fun row => length row = n) O -> 0 < length O -> n <> 1 ->
  forall shift, Im shift = 0%R -> (0 < Re shift)%R -> forall fuel tol max_iter b, (0 <= tol)%R -> n < fuel ->
  (forall m, max_iter = Some m -> n <= m) -> length b = n ->
  exists x i res, solve_iteratively fuel n shift tol max_iter (jacobian_minus_mean n O) b = Ok (Some (x, i, res)) /\ length x = n /\ i <= n /\
    (res <= tol * norm n b)%R /\
    forall y d, length y = n -> matvec (s_matrix n shift (jacobian_minus_mean n O)) y = b ->
      length d = n -> (forall k, k < n -> nth k d C0 = (nth k y C0 - nth k x C0)%C) -> (Re shift * norm n d <= res)%R.
Proof.
  intros n O F HB N1 shift Hs P fuel tol max_iter b Ht Hf Hm Lb. set (J := jacobian_minus_mean n O).
  pose proof (J_rows n O F) as FJ. assert (HJ : 0 < length J) by (unfold J; rewrite (J_length n O); exact HB).
  pose proof (product_linear n J FJ shift) as LA.
  assert (R0 : residual_of n (covariance_vector_product n shift J) b (zero n) b).
  { split; [exact Lb|]. intros i Hi.
    rewrite (proj2 LA C0 C0 (zero n) (zero n) (zero n)); try apply repeat_length; try exact Hi; [csolve|].
    intros k Hk. rewrite nth_zero. csolve. }
  destruct (cg_converges_spec n (covariance_vector_product n shift J) None b None LA (product_self_adjoint n J FJ shift HJ Hs)
    (product_positive n J FJ shift HJ Hs P) ltac:(discriminate) Lb ltac:(discriminate) max_iter fuel tol b Ht Hf Hm R0) as (s & E & I & T).
  destruct (cg_report_spec n (covariance_vector_product n shift J) None b None LA ltac:(discriminate) Lb ltac:(discriminate) max_iter fuel tol s b R0 E)
    as (Lx & R & _).
  exists (cg_x s), (cg_i s), (float_norm (cg_r s)). unfold solve_iteratively. rewrite (proj2 (Nat.eqb_neq _ _) N1), E.
  rewrite (float_norm_norm n) by apply R. split; [reflexivity|]. split; [exact Lx|]. split; [exact I|]. split; [exact T|].
  intros y d Ly Sy Ld Hd. fold J in Sy. rewrite (explicit_product n J FJ shift y Ly) in Sy.
  replace (norm n d) with (norm n (csub y (cg_x s))); [now apply (error_bound n J FJ shift HJ b)|].
  f_equal. apply cvec_ext; [rewrite csub_length; lia|]. rewrite csub_length by lia. intros k Hk. rewrite nth_csub by lia. symmetry. apply Hd. lia.
Qed.
Print Assumptions C48_iterative_solver.
Example C48_iterative_solver_ex : Forall (fun row => length row = 2) [[C1; C0]; [C0; C1]] /\ (0 <= 1 / 1000)%R /\ 2 <> 1.
Proof. split; [repeat constructor|]. split; [lra|lia]. Qed.

(** A model with one complex weight is rejected by the iterative solver. *)
Theorem C48_single_weight_refuted : forall fuel shift tol max_iter J b, solve_iteratively fuel 1 shift tol max_iter J b = Err ValueError.
Proof. reflexivity. Qed.
Print Assumptions C48_single_weight_refuted.
Example C48_single_weight_refuted_ex : solve_iteratively 5 1 C1 0 None [[C1]] [C1] = Err ValueError.
Proof. reflexivity. Qed.

(** The update goes downhill: the weights move by - lr * x, and the inner product of the gradient with x is at least shift * norm x ^ 2. *)
Theorem C48_descent : forall n O, Forall (fun row => length row = n) O -> 0 < length O -> forall shift, Im shift = 0%R ->
  forall gradient x, length x = n -> matvec (s_matrix n shift (jacobian_minus_mean n O)) x = gradient ->
  (Re shift * (norm n x * norm n x) <= Re (inner n gradient x))%R.
Proof.
  intros n O F HB shift Hs b x L E. pose proof (J_rows n O F) as FJ. rewrite (explicit_product n _ FJ shift x L) in E.
  apply (descent n (jacobian_minus_mean n O) shift b x); auto. rewrite (J_length n O). exact HB.
Qed.
Print Assumptions C48_descent.
Example C48_descent_ex : Forall (fun row => length row = 2) [[C1; C0]; [C0; C1]] /\ length [C1; C0] = 2 /\ Im (RtoC (1 / 20)) = 0%R.
Proof. split; [repeat constructor|split; reflexivity]. Qed.
Theorem C48_update : forall lr reals imags x, map fst reals = map fst imags -> Forall well_shaped reals -> Forall well_shaped imags ->
  length x = entries (map fst reals) ->
  exists reals' imags', get_updates lr reals imags x = Ok (reals', imags') /\
    forall i, nth i (concat (map2 (fun r i => complex_weight_value (snd r, snd i)) reals' imags')) C0 =
      (nth i (concat (map2 (fun r i => complex_weight_value (snd r, snd i)) reals imags)) C0 - RtoC lr * nth i x C0)%C.
Proof.
  intros lr reals imags x Sh Fr Fi L.
  destruct (C46_gradient_step lr reals imags (map (fun z => (z * (-1, 0)%R)%C) x) Sh Fr Fi) as (r' & i' & E & _ & _ & Q); [now rewrite map_length|].
  exists r', i'. split; [exact E|]. intros i. rewrite Q. replace (nth i (map (fun z => (z * (-1, 0)%R)%C) x) C0) with (- nth i x C0)%C; [ring|].
  replace C0 with (C0 * (-1, 0)%R)%C at 2 by csolve. rewrite (map_nth (fun z => (z * (-1, 0)%R)%C)). csolve.
Qed.
Print Assumptions C48_update.
Example C48_update_ex : length [C1; C0] = entries (map fst [([2], [1; 2]%R)]). Proof. reflexivity. Qed.

(** With compute_jvp_instead_of_full_jacobian the right hand side is not the energy gradient: it is the product with the jacobian instead of its
    adjoint. A batch smaller than the number of weights is rejected. *)
Theorem C48_jvp_gradient_refuted :
  (exists n O targets weights, Forall (fun row => length row = n) O /\ length O = length targets /\ entries weights = n /\
     Csum (fun t => t) targets = C0 /\ exists g, jvp_energy_grad weights O targets = Ok g /\ g <> energy_grad n O targets) /\
  forall weights O targets, length targets < entries weights -> jvp_energy_grad weights O targets = Err ValueError.
Proof.
  split.
  - exists 2, [[C0; C1]; [C0; C0]], [C1; (- C1)%C], [[2]]. split; [repeat constructor|]. split; [reflexivity|]. split; [reflexivity|].
    split; [unfold Csum; cbn; csolve|]. eexists. split; [reflexivity|]. intros H. apply (f_equal (fun l => Re (nth 0 l C0))) in H. revert H.
    cbn. unfold Cdiv, Cinv, Cnorm2, RtoC, Re, Csum, Cplus, Cmult, Cconj, Cminus, Copp, C1, C0. cbn. intros H. field_simplify in H. lra.
  - intros weights O targets L. unfold jvp_energy_grad, from_complex_vector_to_tensors. rewrite c2t_cut, cut_short; [reflexivity|].
    rewrite !map_length. exact L.
Qed.
Print Assumptions C48_jvp_gradient_refuted.
(** It is the product of the jacobian with the first targets, one entry per sample. *)
Theorem C48_jvp_gradient_value : forall weights O targets, entries weights <= length targets ->
  exists g, jvp_energy_grad weights O targets = Ok g /\ length g = length O /\
    forall i, nth i g C0 = Csum (fun z => z) (map2 (fun o t => (o * Cconj t)%C) (nth i O []) (firstn (entries weights) targets)).
Proof.
  intros weights O targets L. unfold jvp_energy_grad, from_complex_vector_to_tensors. rewrite !c2t_cut.
  destruct (cut_ok weights (map Re (map Cconj targets))) as (r & E1 & _); [rewrite !map_length; exact L|].
  destruct (cut_ok weights (map Im (map Cconj targets))) as (j & E2 & _); [rewrite !map_length; exact L|].
  rewrite E1, E2. cbn [bind]. eexists. split; [reflexivity|]. split; [apply map_length|]. intros i.
  replace (fold_right (fun w k => size_of w + k) 0 weights) with (entries weights) by reflexivity.
  unfold matvec. rewrite <- (map_nth (fun row => Csum (fun z => z) (map2 (fun o t => (o * Cconj t)%C) row (firstn (entries weights) targets)))).
  match goal with |- nth i (map ?f O) ?a = nth i (map ?g O) ?b => replace b with C0 by reflexivity; replace (map f O) with (map g O); [reflexivity|] end.
  apply map_ext. intros row. f_equal. rewrite firstn_map. generalize (firstn (entries weights) targets).
  induction row as [|z row IH]; intros [|t ts]; cbn [map map2]; [reflexivity..|]. now rewrite IH.
Qed.
Print Assumptions C48_jvp_gradient_value.
Example C48_jvp_gradient_value_ex : entries [[2]; [1; 1]] <= length [C1; C0; C1; C1].
Proof. cbv. lia. Qed.
