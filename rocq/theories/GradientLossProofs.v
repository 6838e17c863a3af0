(** From the derivative of the log wave function to the gradient of the loss; normalised kernels; the first row of the machine in two dimensions. *)
From Coq Require Import List ZArith Arith Bool Reals Lra Lia.
From Verif Require Import Base Cplx OrderingModel OrderingSpec TensorModel AutoregressiveModel AutoregressiveSpec MachinesModel MachinesSpec ComplexModel GradientModel
  GradientSpec ExactSpec ExactGradientProofs GradientProofs PipelineSpec PipelineProofs.
Import ListNotations.
Local Open Scope nat_scope.

Lemma unit_vector_length d i : length (unit_vector d i) = d.
Proof. unfold unit_vector. now rewrite map_length, range_length. Qed.

Lemma nth_unit_vector d i k : i < d -> nth k (unit_vector d i) 0%R = if k =? i then 1%R else 0%R.
Proof.
  intros Hi. unfold unit_vector. destruct (Nat.lt_ge_cases k d) as [L|L].
  - rewrite (nth_indep _ 0%R ((fun k => if k =? i then 1%R else 0%R) 0)) by now rewrite map_length, range_length.
    rewrite (map_nth (fun k => if k =? i then 1%R else 0%R)). unfold range. now rewrite seq_nth.
  - rewrite nth_overflow by now rewrite map_length, range_length. destruct (Nat.eqb_spec k i); [lia|reflexivity].
Qed.

Lemma nth_upd_cases (w : list R) i k v : i < length w -> nth k (upd w i v) 0%R = if k =? i then v else nth k w 0%R.
Proof. intros Hi. destruct (Nat.eqb_spec k i) as [->|E]; [now rewrite nth_upd_same|]. now rewrite nth_upd_other by congruence. Qed.

Lemma place_limit (w : list R) i k : i < length w -> derivable_pt_lim (fun v => nth k (upd w i v) 0%R) (nth i w 0%R) (nth k (unit_vector (length w) i) 0%R).
Proof.
  intros Hi. rewrite nth_unit_vector by exact Hi. apply (limit_ext (fun v => if k =? i then v else nth k w 0%R)); [intros v; symmetry; now apply nth_upd_cases|].
  destruct (k =? i); [apply derivable_pt_lim_id|apply const_limit].
Qed.

Lemma layer_derive a (w : list R) i : i < length w ->
  weights_derive (fun v => layer_weights a (upd w i v)) (nth i w 0%R) (layer_weights a (unit_vector (length w) i)).
Proof. intros Hi. split; intros j; now apply place_limit. Qed.

Lemma complex_layer_derive re im (w : list R) i : i < length w ->
  complex_weights_derive (fun v => complex_layer_weights re im (upd w i v)) (nth i w 0%R) (complex_layer_weights re im (unit_vector (length w) i)).
Proof. intros Hi. split; intros j; split; now apply place_limit. Qed.

Lemma loss_slope (f : R -> C) x d t : Cderive f x d -> derivable_pt_lim (fun v => 2 * Re (f v * t)%C)%R x (2 * Re (d * t)%C)%R.
Proof.
  intros D. apply (derivable_pt_lim_scal (fun v => Re (f v * t)%C)). apply (limit_ext (fun v => Re (t * f v)%C)); [intros v; f_equal; ring|].
  apply (limit_value _ _ (Re (t * d)%C)); [f_equal; ring|]. exact (proj1 (Cderive_scal t f x d D)).
Qed.

Lemma sample_loss_gradient n (log_psi : list R -> list Z -> C) (along : list R -> list R -> list Z -> C) (w : list R) :
  (forall i s, i < length w -> In s (spin_configs n) -> Cderive (fun v => log_psi (upd w i v) s) (nth i w 0%R) (along w (unit_vector (length w) i) s)) ->
  loss_gradient n (length w) log_psi (fun w => sample_loss_slope (length w) (along w)) w.
Proof.
  intros H. split.
  - intros x. unfold sample_loss_slope. now rewrite map_length, range_length.
  - intros i s t Hi Hs. apply (limit_value _ _ (2 * Re (along w (unit_vector (length w) i) s * t)%C)%R); [|now apply loss_slope, H].
    unfold sample_loss_slope. cbn [fst snd].
    rewrite (nth_indep _ 0%R ((fun i => 2 * Re (along w (unit_vector (length w) i) s * t)%C)%R 0%nat)) by now rewrite map_length, range_length.
    rewrite (map_nth (fun i => 2 * Re (along w (unit_vector (length w) i) s * t)%C)%R). unfold range. now rewrite seq_nth.
Qed.

Lemma real_1d_loss p act dact places n w : real_activation act dact ->
  (forall i s, i < length w -> In s (spin_configs n) -> all_smooth (real_1d_out p dact places n w (unit_vector (length w) i) s) [n] (length s) = true) ->
  loss_gradient n (length w) (fun w => predictions (conditionals (simple_conv_net_1d p (fun l => layer_weights (places l) w) act) [n])) (real_1d_gradient p dact places n) w.
Proof.
  intros HA HS. unfold real_1d_gradient.
  apply (sample_loss_gradient n (fun w => predictions (conditionals (simple_conv_net_1d p (fun l => layer_weights (places l) w) act) [n]))
    (fun w v s => log_psi_slope vector_to_complex (real_1d_out p dact places n w v s) [n] s)).
  intros i s Hi Hs.
  pose proof (real_machine_derive p (fun v l => layer_weights (places l) (upd w i v)) (fun l => layer_weights (places l) (unit_vector (length w) i)) (nth i w 0%R) act dact n s HA
    (fun l => layer_derive (places l) w i Hi)) as D. cbv zeta beta in D. rewrite upd_same_value in D. apply D. now apply HS.
Qed.

Lemma complex_1d_loss p act dact re im n w : complex_activation act dact ->
  (forall i s, i < length w -> In s (spin_configs n) -> all_smooth (complex_1d_out p dact re im n w (unit_vector (length w) i) s) [n] (length s) = true) ->
  loss_gradient n (length w) (fun w => predictions (conditionals (complex_conv_net_1d p (fun l => complex_layer_weights (re l) (im l) w) act) [n]))
    (complex_1d_gradient p dact re im n) w.
Proof.
  intros HA HS. unfold complex_1d_gradient.
  apply (sample_loss_gradient n (fun w => predictions (conditionals (complex_conv_net_1d p (fun l => complex_layer_weights (re l) (im l) w) act) [n]))
    (fun w v s => log_psi_slope (fun v => v) (complex_1d_out p dact re im n w v s) [n] s)).
  intros i s Hi Hs.
  pose proof (complex_machine_derive p (fun v l => complex_layer_weights (re l) (im l) (upd w i v)) (fun l => complex_layer_weights (re l) (im l) (unit_vector (length w) i))
    (nth i w 0%R) act dact n s HA (fun l => complex_layer_derive (re l) (im l) w i Hi)) as D. cbv zeta beta in D. rewrite upd_same_value in D. apply D. now apply HS.
Qed.

Lemma real_2d_loss p places last h wd w :
  (forall i s, i < length w -> In s (spin_configs (h * wd)) ->
     all_smooth (real_2d_out p places last h wd w (unit_vector (length w) i) s) [h; wd] (length s) = true) ->
  loss_gradient (h * wd) (length w)
    (fun w => predictions (conditionals (conv_net_2d p (fun b j => layer_weights (places b j) w) (layer_weights last w) relu_row) [h; wd]))
    (real_2d_gradient p places last h wd) w.
Proof.
  intros HS. unfold real_2d_gradient.
  apply (sample_loss_gradient (h * wd) (fun w => predictions (conditionals (conv_net_2d p (fun b j => layer_weights (places b j) w) (layer_weights last w) relu_row) [h; wd]))
    (fun w v s => log_psi_slope vector_to_complex (real_2d_out p places last h wd w v s) [h; wd] s)).
  intros i s Hi Hs.
  pose proof (machine_2d_derive p (fun v b j => layer_weights (places b j) (upd w i v)) (fun b j => layer_weights (places b j) (unit_vector (length w) i))
    (fun v => layer_weights last (upd w i v)) (layer_weights last (unit_vector (length w) i)) (nth i w 0%R) h wd s
    (fun b j => layer_derive (places b j) w i Hi) (layer_derive last w i Hi)) as D. cbv zeta beta in D. rewrite upd_same_value in D. apply D. now apply HS.
Qed.

(** * The first row *)
Lemma map_zero {A} (f : A -> R) (l : list A) : (forall a, f a = 0%R) -> map f l = repeat 0%R (length l).
Proof. intros H. induction l as [|a l IH]; [reflexivity|]. cbn [map length repeat]. now rewrite H, IH. Qed.

Lemma sum_zeros n : fold_right Rplus 0%R (repeat 0%R n) = 0%R.
Proof. induction n as [|n IH]; [reflexivity|]. cbn [repeat fold_right]. rewrite IH. ring. Qed.

Lemma add_zeros (b : nat -> R) f : forall a, map2 Rplus (repeat 0%R f) (map b (seq a f)) = map b (seq a f).
Proof. induction f as [|f IH]; intros a; [reflexivity|]. cbn [repeat seq map map2]. rewrite IH, Rplus_0_l. reflexivity. Qed.

Lemma first_row w f x y h wd c : tshape (kt x) = [h; wd] ->
  conv_layer real_numbers w f [1; 1] [1; 1] (shift_layer real_numbers 0 x) = Ok y -> tval (kt y) [0; c] = map (bias_at w) (range f).
Proof.
  intros Sh. unfold conv_layer. destruct (existsb _ _); [discriminate|]. intros E. injection E as <-. cbn [kt conv_output tval conv_of bias filters activation kernel_size channels kernel].
  rewrite (map_zero _ (range f)).
  - rewrite range_length. apply add_zeros.
  - intros k. change (raster [1; 1]) with [[0; 0]]. cbn [flat_map]. rewrite app_nil_r. rewrite map_zero; [apply sum_zeros|].
    intros ch. replace (nth ch _ (zero real_numbers)) with 0%R; [cbn; ring|]. symmetry.
    transitivity (nth ch (repeat 0%R (features x)) 0%R); [|apply nth_repeat]. f_equal.
    unfold conv_loc, conv_of. cbn [shift_layer kt strides dilation_rate]. unfold shift. cbn [concat2 tval constant_like take_first tshape map2]. rewrite Sh. reflexivity.
Qed.

(** A machine with one site whose log wave function has a corner. *)
Definition corner_params : params_2d := {| depth2 := 2; channels2 := 2; ksize2 := 1 |}.
Definition corner_weights (block layer : nat) : weights R :=
  {| kernel_at := fun j => if (block =? 1) && (layer =? 4) then (if j =? 2 then 1%R else 0%R) else 1%R; bias_at := fun _ => 0%R |}.
Definition corner_direction (block layer : nat) : weights R := if (block =? 1) && (layer =? 3) then bias_direction 0 else no_direction.
Definition corner_last : weights R := {| kernel_at := fun j => if j =? 0 then 1%R else 0%R; bias_at := fun _ => 0%R |}.
Local Notation corner_machine t := (conv_net_2d corner_params (fun b j => moved (corner_weights b j) (corner_direction b j) t) corner_last relu_row).
Local Notation corner_out :=
  (conv_net_2d_features (dual_numbers real_numbers) corner_params (fun b j => weights_with_slope (corner_weights b j) (corner_direction b j))
    (weights_with_slope corner_last no_direction) relu_dual_row (constant_input real_numbers IZR [1; 1] [1%Z])).

Lemma max_0_0 : Rmax 0 0 = 0%R. Proof. apply Rmax_left. lra. Qed.
Lemma max_max t : Rmax 0 (Rmax 0 t) = Rmax 0 t. Proof. apply Rmax_right. apply Rmax_l. Qed.

Lemma corner_row t : conditionals (corner_machine t) [1; 1] [1%Z] 0 = [(Rmax 0 t, 0%R); C0].
Proof.
  match goal with |- ?a = _ => let b := eval cbv -[Rplus Rmult Rmax IZR] in a in change a with b end.
  repeat rewrite ?Rmult_0_l, ?Rmult_0_r, ?Rmult_1_r, ?Rplus_0_l, ?Rplus_0_r, ?max_0_0, ?max_max. reflexivity.
Qed.

Lemma corner_log_psi t : predictions (conditionals (corner_machine t) [1; 1]) [1%Z] = (Rmax 0 t - 1 / 2 * ln (exp (2 * Rmax 0 t) + 1), 0)%R.
Proof.
  unfold predictions. cbn [length]. change (range 1) with [0]. cbn [map]. unfold conditional_log_wave_function. rewrite corner_row.
  unfold normalize_complex, reduce_logsumexp, combine_complex. cbn [map map2].
  change (plus_minus_one_to_one_hot 1) with [1%R; 0%R]. cbn [map2 concat app]. rewrite !Csum_cons. cbn [Csum fold_right map]. rewrite !Rsum_cons, Rsum_nil.
  unfold C0, Re, Im. cbn [fst snd]. rewrite Rmult_0_l, exp_0, Rplus_0_r, (Rmult_comm (Rmax 0 t) 2).
  unfold Csum. cbn [fold_right]. apply C_eq; unfold Cplus, Cmult, RtoC, C0, Re, Im; cbn [fst snd]; ring.
Qed.

Lemma corner_has_no_derivative : ~ exists d, Cderive (fun t => predictions (conditionals (corner_machine t) [1; 1]) [1%Z]) 0 d.
Proof.
  intros (d & D & _). set (k := fun t => (t - 1 / 2 * ln (exp (2 * t) + 1))%R).
  assert (D' : derivable_pt_lim (fun t => k (Rmax 0 t)) 0 (Re d)).
  { apply (limit_ext (fun t => Re (predictions (conditionals (corner_machine t) [1; 1]) [1%Z]))); [|exact D]. intros t. now rewrite corner_log_psi. }
  assert (K : derivable_pt_lim k 0 (/ 2)%R).
  { apply (limit_value _ _ (1 - 1 / 2 * (/ (exp (2 * 0) + 1) * (exp (2 * 0) * (2 * 1) + 0)))%R); [rewrite Rmult_0_r, exp_0; field|].
    apply derivable_pt_lim_minus; [apply derivable_pt_lim_id|]. apply (derivable_pt_lim_scal (fun t => ln (exp (2 * t) + 1))%R).
    apply (comp_limit ln (fun t => exp (2 * t) + 1)%R); [|apply derivable_pt_lim_ln; pose proof (exp_pos (2 * 0)); lra].
    apply plus_limit; [|apply const_limit]. apply (comp_limit exp (fun t => 2 * t)%R); [|apply derivable_pt_lim_exp].
    apply (derivable_pt_lim_scal id). apply derivable_pt_lim_id. }
  assert (E8 : (0 < / 8)%R) by lra. destruct (D' _ E8) as [d1 H1], (K _ E8) as [d2 H2].
  set (h := (Rmin d1 d2 / 2)%R). assert (P : (0 < Rmin d1 d2)%R) by (apply Rmin_pos; apply cond_pos).
  pose proof (Rmin_l d1 d2) as M1. pose proof (Rmin_r d1 d2) as M2. assert (Hh : (0 < h)%R) by (unfold h; lra).
  assert (A1 : (Rabs h < d1)%R) by (rewrite Rabs_pos_eq by lra; unfold h; lra).
  assert (A2 : (Rabs h < d2)%R) by (rewrite Rabs_pos_eq by lra; unfold h; lra).
  assert (A3 : (Rabs (- h) < d1)%R) by now rewrite Rabs_Ropp.
  specialize (H2 h ltac:(lra) A2). pose proof (H1 h ltac:(lra) A1) as R1. pose proof (H1 (- h)%R ltac:(lra) A3) as R2.
  rewrite !Rplus_0_l in *. rewrite max_0_0 in *. rewrite (Rmax_right 0 h) in R1 by lra. rewrite (Rmax_left 0 (- h)) in R2 by lra.
  replace ((k 0 - k 0) / - h)%R with 0%R in R2 by (field; lra). apply Rabs_def2 in H2, R1, R2. lra.
Qed.

Definition first_features {T} (out : res (ktensor T)) : list T := match out with Ok y => tval (kt y) (location [1; 1] 0) | Err _ => [] end.
Definition number (a b : R) (s : bool) : dual R := {| value := a; slope := b; smooth := s |}.
Lemma number_rules : (zero (dual_numbers real_numbers) = number 0 0 true) /\
  (forall s, times (dual_numbers real_numbers) (number 0 0 s) (number 1 0 true) = number 0 0 s) /\
  (forall s, times (dual_numbers real_numbers) (number 0 0 s) (number 0 0 true) = number 0 0 s) /\
  (forall s u, plus (dual_numbers real_numbers) (number 0 0 s) (number 0 0 u) = number 0 0 (s && u)) /\
  (forall s u, plus (dual_numbers real_numbers) (number 0 0 s) (number 0 1 u) = number 0 1 (s && u)) /\
  (forall s, relu_dual (number 0 0 s) = number 0 0 s) /\ (forall s, relu_dual (number 0 1 s) = number 0 0 false).
Proof.
  assert (N : forall a b a' b' s s', a = a' -> b = b' -> s = s' -> number a b s = number a' b' s') by (intros; congruence).
  split; [reflexivity|]. split; [|split; [|split; [|split; [|split]]]]; intros.
  - cbn [plus times dual_numbers real_numbers value slope smooth number]. apply N; [ring|ring|apply andb_true_r].
  - cbn [plus times dual_numbers real_numbers value slope smooth number]. apply N; [ring|ring|apply andb_true_r].
  - cbn [plus dual_numbers real_numbers value slope smooth number]. apply N; [ring|ring|reflexivity].
  - cbn [plus dual_numbers real_numbers value slope smooth number]. apply N; [ring|ring|reflexivity].
  - unfold relu_dual, number. cbn [value slope smooth]. rewrite max_0_0. destruct (Rlt_dec 0 0); [lra|]. destruct (Req_EM_T 0 0); [|lra]. now rewrite andb_true_r.
  - unfold relu_dual, number. cbn [value slope smooth]. rewrite max_0_0. destruct (Rlt_dec 0 0); [lra|]. destruct (Req_EM_T 0 0); [|lra]. destruct (Req_EM_T 1 0); [lra|].
    now rewrite andb_false_r.
Qed.

(** The same with any numbers that have these rules. *)
Lemma corner_rules {T} (N : numbers T) (W : nat -> nat -> weights T) (wl : weights T) (act : T -> T) (of_Z : Z -> T) (c0 c1 e zf : T) :
  zero N = c0 -> (forall k, kernel_at (W 1 2) k = c1) -> (forall k, kernel_at (W 1 3) k = c1) ->
  (forall k, kernel_at (W 1 4) k = if k =? 2 then c1 else c0) -> bias_at (W 1 2) 0 = c0 -> bias_at (W 1 3) 0 = e ->
  (forall k, bias_at (W 1 4) k = c0) -> (forall k, kernel_at wl k = if k =? 0 then c1 else c0) -> (forall k, bias_at wl k = c0) ->
  times N c0 c1 = c0 -> times N c0 c0 = c0 -> times N zf c1 = zf -> times N zf c0 = zf -> plus N c0 c0 = c0 -> plus N zf c0 = zf -> plus N c0 zf = zf -> plus N zf zf = zf ->
  plus N c0 e = e -> act c0 = c0 -> act e = zf -> act zf = zf ->
  first_features (conv_net_2d_features N corner_params W wl (map act) (expand_and_cast of_Z (input_array [1; 1] [1%Z]))) =
  [zf; zf; zf; zf].
Proof.
  intros Z0 K2 K3 K4 B2 B3 B4 KL BL T1 T2 T3 T4 P1 P2 P3 P4 P5 A1 A2 A3.
  match goal with |- ?a = _ => let b := eval cbv -[kernel_at bias_at plus times zero] in a in change a with b end.
  rewrite !Z0, !K2, !K3, !K4, !B2, !B3, !B4, !KL, !BL. cbn [Nat.eqb].
  repeat rewrite ?T1, ?T2, ?T3, ?T4, ?P1, ?P2, ?P3, ?P4, ?P5, ?A1, ?A2, ?A3. reflexivity.
Qed.

Lemma corner_features_row : first_features corner_out = repeat (number 0 0 false) 4.
Proof.
  destruct number_rules as (Z0 & T1 & T0 & P0 & P1 & R0 & R1).
  apply (corner_rules (dual_numbers real_numbers) (fun b j => weights_with_slope (corner_weights b j) (corner_direction b j)) (weights_with_slope corner_last no_direction)
    relu_dual (fun z => constant real_numbers (IZR z)) (number 0 0 true) (number 1 0 true) (number 0 1 true) (number 0 0 false)); auto.
  - intros k. cbn. destruct k as [|[|[|k]]]; reflexivity.
  - intros k. cbn. destruct k; reflexivity.
  - apply P0. - apply P0. - apply P0. - apply P0. - apply P1.
Qed.

Lemma zero_reported out : first_features out = repeat (number 0 0 false) 4 ->
  log_psi_slope vector_to_complex out [1; 1] [1%Z] = C0 /\ all_smooth out [1; 1] 1 = false.
Proof.
  intros F. unfold first_features in F. destruct out as [y|e]; [|discriminate F].
  assert (A : map value (tval (kt y) (location [1; 1] 0)) = [0; 0; 0; 0]%R) by now rewrite F.
  assert (B : map slope (tval (kt y) (location [1; 1] 0)) = [0; 0; 0; 0]%R) by now rewrite F.
  assert (D : forallb smooth (tval (kt y) (location [1; 1] 0)) = false) by now rewrite F. split.
  - unfold log_psi_slope, predictions_slope. cbn [length]. change (range 1) with [0]. cbn [map]. rewrite A, B.
    change (plus_minus_one_to_one_hot 1) with [1%R; 0%R]. unfold combine_complex, normalize_slope.
    change (vector_to_complex [0; 0; 0; 0]%R) with [(0, 0); (0, 0)]%R. cbn [combine map map2 concat app fst snd]. rewrite !Rsum_cons, !Rsum_nil. rewrite !Csum_cons.
    unfold Re. cbn [fst snd]. rewrite !Rmult_0_r. unfold Csum. cbn [fold_right]. rewrite exp_0.
    apply C_eq; unfold Cplus, Cminus, Copp, Cmult, RtoC, C0, Re, Im; cbn [fst snd]; field.
  - unfold all_smooth. change (range 1) with [0]. cbn [forallb]. rewrite D. reflexivity.
Qed.

Lemma corner_reported : log_psi_slope vector_to_complex corner_out [1; 1] [1%Z] = C0 /\ all_smooth corner_out [1; 1] 1 = false.
Proof. exact (zero_reported corner_out corner_features_row). Qed.

(** * Normalised kernels *)
From Verif Require Import WeightNormModel.
Local Open Scope R_scope.

Lemma max_limit f x d e : derivable_pt_lim f x d -> f x <> e -> derivable_pt_lim (fun t => Rmax (f t) e) x (if Rle_dec e (f x) then d else 0).
Proof.
  intros H N. destruct (Rle_dec e (f x)) as [P|P].
  - assert (Q : 0 < f x - e) by lra. destruct (limit_near f x d _ H Q) as (r & Hr & K). apply (limit_local f _ x d r Hr); [|exact H].
    intros t Ht. apply K in Ht. apply Rabs_def2 in Ht. rewrite Rmax_left; lra.
  - assert (Q : 0 < e - f x) by lra. destruct (limit_near f x d _ H Q) as (r & Hr & K). apply (limit_local (fun _ => e) _ x 0 r Hr); [|apply const_limit].
    intros t Ht. apply K in Ht. apply Rabs_def2 in Ht. rewrite Rmax_right; lra.
Qed.

Lemma square_sum_limit axes (V : R -> tensor R) dv x l sh : (forall t, tshape (V t) = sh) -> (forall l, derivable_pt_lim (fun t => tval (V t) l) x (tval dv l)) ->
  derivable_pt_lim (fun t => square_sum axes (V t) l) x (2 * Rsum (fun l' => tval (V x) l' * tval dv l') (filter (same_group axes l) (raster sh))).
Proof.
  intros S H. unfold square_sum.
  apply (limit_ext (fun t => Rsum (fun l' => tval (V t) l' * tval (V t) l') (filter (same_group axes l) (raster sh)))); [intros t; now rewrite S|].
  apply (limit_value _ _ (Rsum (fun l' => tval (V x) l' * tval dv l' + tval dv l' * tval (V x) l') (filter (same_group axes l) (raster sh)))).
  { rewrite <- Rsum_scal. apply Rsum_ext. intros. ring. }
  apply (real_sum_limit (fun l' t => tval (V t) l' * tval (V t) l')). intros l' _. now apply (mult_limit (fun t => tval (V t) l') (fun t => tval (V t) l')).
Qed.

Lemma rsqrt_limit f x d : derivable_pt_lim f x d -> 0 < f x -> derivable_pt_lim (fun t => / sqrt (f t)) x (- (d / (2 * f x * sqrt (f x)))).
Proof.
  intros H P. pose proof (sqrt_lt_R0 _ P) as Q.
  assert (D : derivable_pt_lim (fun t => sqrt (f t)) x (/ (2 * sqrt (f x)) * d)) by (apply comp_limit; [exact H|now apply derivable_pt_lim_sqrt]).
  apply (limit_ext (fun t => 1 / sqrt (f t))); [intros t; unfold Rdiv; ring|].
  apply (limit_value _ _ ((0 * sqrt (f x) - (/ (2 * sqrt (f x)) * d) * 1) / Rsqr (sqrt (f x)))).
  - rewrite Rsqr_sqrt by lra. field. lra.
  - apply (derivable_pt_lim_div (fun _ => 1) (fun t => sqrt (f t)) x 0 _ (const_limit 1 x) D). lra.
Qed.

Lemma epsilon_pos : 0 < l2_epsilon.
Proof. unfold l2_epsilon. apply Rinv_0_lt_compat, pow_lt. lra. Qed.

Lemma l2_normalize_limit axes (V : R -> tensor R) dv x l sh : (forall t, tshape (V t) = sh) -> (forall l, derivable_pt_lim (fun t => tval (V t) l) x (tval dv l)) ->
  square_sum axes (V x) l <> l2_epsilon -> derivable_pt_lim (fun t => tval (l2_normalize axes (V t)) l) x (l2_normalize_slope axes (V x) dv l).
Proof.
  intros S H N. pose proof (square_sum_limit axes V dv x l sh S H) as D. pose proof (max_limit _ x _ l2_epsilon D N) as M. cbv beta in M.
  assert (P : 0 < Rmax (square_sum axes (V x) l) l2_epsilon) by (pose proof epsilon_pos; pose proof (Rmax_r (square_sum axes (V x) l) l2_epsilon); lra).
  pose proof (rsqrt_limit _ x _ M P) as Q. cbv beta in Q. pose proof (sqrt_lt_R0 _ P) as P2. cbn [l2_normalize tval].
  pose proof (mult_limit (fun t => tval (V t) l) _ x _ _ (H l) Q) as F. cbv beta in F. eapply limit_value; [|exact F].
  unfold l2_normalize_slope. rewrite S. set (m := Rmax _ _) in *. destruct (Rle_dec l2_epsilon (square_sum axes (V x) l)); field; lra.
Qed.

Lemma nth_map_exp u k : (k < length u)%nat -> nth k (map exp u) 0 = exp (nth k u 0).
Proof. intros. rewrite (nth_indep _ 0 (exp 0)) by now rewrite map_length. apply map_nth. Qed.

Lemma normalized_kernel_limit (w : R -> wrapper) dv dg x sh m e axes l : (forall t, tshape (v (w t)) = sh) -> (forall t, length (g (w t)) = m) ->
  (forall t, exponential_norm (w t) = e) -> (forall t, kernel_norm_axes (w t) = axes) -> (m = 1 \/ last l 0 < m)%nat ->
  (forall l, derivable_pt_lim (fun t => tval (v (w t)) l) x (tval dv l)) -> (forall k, derivable_pt_lim (fun t => nth k (g (w t)) 0) x (nth k dg 0)) ->
  square_sum axes (v (w x)) l <> l2_epsilon ->
  exists k : R -> tensor R, (forall t, compute_weights (Some (w t)) = Ok (k t)) /\ derivable_pt_lim (fun t => tval (k t) l) x (normalized_kernel_slope (w x) dv dg l).
Proof.
  intros Sv Sg Se Sa L Dv Dg N. eexists. split; [intros t; reflexivity|]. cbn [times_vector tval].
  set (c := if (m =? 1)%nat then 0%nat else last l 0%nat).
  assert (Hc : (c < m)%nat). { unfold c. destruct (Nat.eqb_spec m 1); [lia|]. destruct L; [contradiction|assumption]. }
  unfold normalized_kernel_slope. rewrite Sg, Se, Sa. fold c. rewrite Rplus_comm, (Rmult_comm (l2_normalize_slope _ _ _ _)).
  apply (limit_ext (fun t => tval (l2_normalize axes (v (w t))) l * (if e then exp (nth c (g (w t)) 0) else nth c (g (w t)) 0))).
  { intros t. rewrite Sa, Se. destruct e; [rewrite map_length|]; rewrite Sg; fold c; [|reflexivity]. now rewrite nth_map_exp by now rewrite Sg. }
  pose proof (l2_normalize_limit axes (fun t => v (w t)) dv x l sh Sv Dv N) as D1. cbv beta in D1.
  assert (D2 : derivable_pt_lim (fun t => if e then exp (nth c (g (w t)) 0) else nth c (g (w t)) 0) x (if e then exp (nth c (g (w x)) 0) * nth c dg 0 else nth c dg 0)).
  { destruct e; [|apply Dg]. apply (comp_limit exp (fun t => nth c (g (w t)) 0)); [apply Dg|apply derivable_pt_lim_exp]. }
  pose proof (mult_limit _ _ x _ _ D1 D2) as F. cbv beta in F. eapply limit_value; [|exact F]. cbn [l2_normalize tval]. ring.
Qed.
