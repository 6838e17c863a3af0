(** C49: gradients per example. Throughout, [g] (or [d]) is the gradient with respect to the output of the layer; "derivative" is expressed by the linear
    functional of the weights it defines: the coefficients of an identity that holds for all weights. *)
From Coq Require Import List ZArith Reals Bool Arith Lia Lra.
From Verif Require Import Base Cplx JacobianModel JacobianSpec JacobianProofs.
Import ListNotations.

(** Dense layers. *)
Theorem C49_dense : forall n filters (x g : nat -> R),
  exists KJ BJ, dense_kernel_jacobian Rmult (tabulate n x) (tabulate filters g) = tensor2 n filters KJ /\
    dense_bias_jacobian (tabulate filters g) = tabulate filters BJ /\
    forall w b, Rsum (fun o => g o * Rdense n x w b o)%R (seq 0 filters) =
      (Rsum (fun o => Rsum (fun i => KJ i o * w i o) (seq 0 n)) (seq 0 filters) + Rsum (fun o => BJ o * b o) (seq 0 filters))%R.
Proof.
  intros n filters x g. exists (fun i o => x i * g o)%R, g. split; [apply dense_kernel|]. split; [reflexivity|]. intros w b.
  unfold Rdense. rewrite <- Rsum_plus. apply Rsum_ext. intros o _. rewrite Rmult_plus_distr_l. f_equal. rewrite <- Rsum_scal.
  apply Rsum_ext. intros i _. ring.
Qed.
Print Assumptions C49_dense.
Example C49_dense_ex : dense_kernel_jacobian Rmult [1; 2]%R [3; 4]%R = [[1 * 3; 1 * 4]; [2 * 3; 2 * 4]]%R.
Proof. reflexivity. Qed.

(** Convolutions in two dimensions, dilation one. *)
Theorem C49_conv2d : forall oh ow kh kw channels filters (x g : nat -> nat -> nat -> R),
  0 < oh -> 0 < ow -> 0 < kh -> 0 < kw -> 0 < channels ->
  exists KJ BJ,
    conv2d_kernel_jacobian 0%R Rplus Rmult 1 1 filters (tensor3 (oh + kh - 1) (ow + kw - 1) channels x) (tensor3 oh ow filters g) =
      tensor4 kh kw channels filters KJ /\
    conv2d_bias_jacobian 0%R Rplus filters (tensor3 oh ow filters g) = tabulate filters BJ /\
    forall w b, Rsum (fun o => Rsum (fun p => g (fst p) (snd p) o * Rconv kh kw channels 1 1 x w b p o) (sites oh ow))%R (seq 0 filters) =
      (Rsum (fun o => Rsum (fun t => KJ (fst (fst t)) (snd (fst t)) (snd t) o * w (fst (fst t)) (snd (fst t)) (snd t) o)%R (taps kh kw channels)) (seq 0 filters) +
       Rsum (fun o => BJ o * b o) (seq 0 filters))%R.
Proof.
  intros oh ow kh kw channels filters x g H1 H2 H3 H4 H5. eexists _, _. split; [now apply conv_kernel|]. split; [apply conv_bias|]. intros w b.
  transitivity (Rsum (fun o => Rsum (fun p => (g (fst p) (snd p) o * (Rsum (fun t => x (fst p + fst (fst t))%nat (snd p + snd (fst t))%nat (snd t) *
    w (fst (fst t)) (snd (fst t)) (snd t) o) (taps kh kw channels) + b o))%R) (sites oh ow)) (seq 0 filters)).
  - apply Rsum_ext. intros o _. apply Rsum_ext. intros p _. unfold Rconv. do 2 f_equal. apply Rsum_ext. intros [[k l] i] _. cbn [fst snd].
    now rewrite !Nat.mul_1_r.
  - rewrite (functional_R (fun p o => g (fst p) (snd p) o) (fun p t => x (fst p + fst (fst t)) (snd p + snd (fst t)) (snd t))
      (fun t o => w (fst (fst t)) (snd (fst t)) (snd t) o)).
    f_equal; apply Rsum_ext; intros o _.
    + apply Rsum_ext. intros t _. now rewrite total_R.
    + now rewrite total_R.
Qed.
Print Assumptions C49_conv2d.
Example C49_conv2d_ex : conv2d_kernel_jacobian 0%Z Z.add Z.mul 1 1 1 [[[1]; [2]]; [[3]; [4]]]%Z [[[10]; [100]]]%Z = [[[[210]]]; [[[430]]]]%Z.
Proof. reflexivity. Qed.

(** Convolutions in one dimension, dilation one. *)
Theorem C49_conv1d : forall n k channels filters (x g : nat -> nat -> R), 0 < n -> 0 < k -> 0 < channels ->
  exists KJ BJ,
    conv1d_kernel_jacobian 0%R Rplus Rmult 1 filters (tensor2 (n + k - 1) channels x) (tensor2 n filters g) = tensor3 k channels filters KJ /\
    conv1d_bias_jacobian 0%R Rplus filters (tensor2 n filters g) = tabulate filters BJ /\
    forall w b, Rsum (fun o => Rsum (fun p => g p o * Rconv k 1 channels 1 1 (fun a _ c => x a c) (fun t _ i o => w t i o) b (p, 0%nat) o) (seq 0 n))%R (seq 0 filters) =
      (Rsum (fun o => Rsum (fun t => KJ (fst (fst t)) (snd t) o * w (fst (fst t)) (snd t) o)%R (taps k 1 channels)) (seq 0 filters) +
       Rsum (fun o => BJ o * b o) (seq 0 filters))%R.
Proof.
  intros n k channels filters x g H1 H2 H3. eexists _, _. split; [now apply conv1d_kernel|]. split; [apply conv1d_bias|]. intros w b.
  transitivity (Rsum (fun o => Rsum (fun p => (g p o * (Rsum (fun t => x (p + fst (fst t))%nat (snd t) * w (fst (fst t)) (snd t) o) (taps k 1 channels) + b o))%R)
    (seq 0 n)) (seq 0 filters)).
  - apply Rsum_ext. intros o _. apply Rsum_ext. intros p _. unfold Rconv. do 2 f_equal. apply Rsum_ext. intros [[t l] i] _. cbn [fst snd].
    now rewrite !Nat.mul_1_r.
  - rewrite (functional_R g (fun p t => x (p + fst (fst t))%nat (snd t)) (fun t o => w (fst (fst t)) (snd t) o)).
    f_equal; apply Rsum_ext; intros o _.
    + apply Rsum_ext. intros t _. now rewrite total_R.
    + now rewrite total_R.
Qed.
Print Assumptions C49_conv1d.
Example C49_conv1d_ex : conv1d_kernel_jacobian 0%Z Z.add Z.mul 1 1 [[1]; [2]; [3]]%Z [[10]; [100]]%Z = [[[210]]; [[320]]]%Z.
Proof. reflexivity. Qed.

(** With dilation two the result is wrong, here even with the right shape: the entry [1][0][0] is not the coefficient of the weight. *)
Theorem C49_dilation_refuted : exists x g, conv1d_kernel_jacobian 0%R Rplus Rmult 2 1 (tensor2 4 1 x) (tensor2 2 1 g) =
    tensor3 2 1 1 (fun t i o => total 0%R Rplus (map (fun a => g a o * x (t + a * 2)%nat i)%R (seq 0 2))) /\
  ~ forall w : nat -> R,
    Rsum (fun p => (g p 0%nat * Rconv 2 1 1 2 1 (fun a _ c => x a c) (fun t _ _ _ => w t) (fun _ => 0) (p, 0%nat) 0)%R) (seq 0 2) =
    Rsum (fun t => (nth 0 (nth 0 (nth t (conv1d_kernel_jacobian 0%R Rplus Rmult 2 1 (tensor2 4 1 x) (tensor2 2 1 g)) []) []) 0 * w t)%R) (seq 0 2).
Proof.
  exists (fun a _ => if a =? 1 then 1%R else 0%R), (fun p _ => if p =? 0 then 1%R else 0%R). split; [reflexivity|].
  intros H. specialize (H (fun _ => 1%R)). unfold Rconv in H. cbn in H. lra.
Qed.
Print Assumptions C49_dilation_refuted.

(** Complex layers whose input is real: the parts of the conjugated jacobian are the derivatives of the real part of the prediction with respect to the
    two variables of every weight. [d]: derivative of the prediction with respect to the output of the layer, of which TensorFlow gives the conjugate. *)
Theorem C49_complex_dense_real_input : forall n filters (x d : nat -> C), (forall i, Im (x i) = 0%R) ->
  exists KJ BJ, dense_kernel_jacobian Cmult (tabulate n x) (tabulate filters (fun o => Cconj (d o))) = tensor2 n filters KJ /\
    dense_bias_jacobian (tabulate filters (fun o => Cconj (d o))) = tabulate filters BJ /\
    forall re im bre bim,
      Re (Csum (fun o => d o * Cdense n x (fun i o => (re i o, - im i o)%R) (fun o => (bre o, - bim o)%R) o)%C (seq 0 filters)) =
      (Rsum (fun o => Rsum (fun i => Re (Cconj (KJ i o)) * re i o + Im (Cconj (KJ i o)) * im i o) (seq 0 n)) (seq 0 filters) +
       Rsum (fun o => Re (Cconj (BJ o)) * bre o + Im (Cconj (BJ o)) * bim o) (seq 0 filters))%R.
Proof.
  intros n filters x d Hx. exists (fun i o => x i * Cconj (d o))%C, (fun o => Cconj (d o)). split; [apply dense_kernel|]. split; [reflexivity|].
  intros re im bre bim. pose proof (complex_functional (fun (_ : unit) o => d o) (fun _ i => x i) re im bre bim [tt] (seq 0 n) (seq 0 filters)
    (fun _ i => Hx i)) as H. cbv beta in H.
  transitivity (Re (Csum (fun o => Csum (fun _ : unit => (d o * (Csum (fun t => x t * (re t o, - im t o)%R) (seq 0 n) + (bre o, - bim o)%R))%C) [tt]) (seq 0 filters))).
  - f_equal. apply Csum_ext. intros o _. rewrite Csum_cons. cbn [Csum fold_right]. unfold Cdense. change (Csum _ []) with C0. ring.
  - rewrite H. f_equal; apply Rsum_ext; intros o _.
    + apply Rsum_ext. intros i _. rewrite Csum_cons. change (Csum _ []) with C0. replace (Cconj (d o) * x i + C0)%C with (x i * Cconj (d o))%C by ring. reflexivity.
    + rewrite Csum_cons. change (Csum _ []) with C0. replace (Cconj (d o) + C0)%C with (Cconj (d o)) by ring. reflexivity.
Qed.
Print Assumptions C49_complex_dense_real_input.
Example C49_complex_dense_real_input_ex : forall i : nat, Im (RtoC (INR i)) = 0%R. Proof. reflexivity. Qed.

Theorem C49_complex_conv2d_real_input : forall oh ow kh kw channels filters (x d : nat -> nat -> nat -> C),
  0 < oh -> 0 < ow -> 0 < kh -> 0 < kw -> 0 < channels -> (forall a b c, Im (x a b c) = 0%R) ->
  exists KJ BJ,
    conv2d_kernel_jacobian C0 Cplus Cmult 1 1 filters (tensor3 (oh + kh - 1) (ow + kw - 1) channels x) (tensor3 oh ow filters (fun a b o => Cconj (d a b o))) =
      tensor4 kh kw channels filters KJ /\
    conv2d_bias_jacobian C0 Cplus filters (tensor3 oh ow filters (fun a b o => Cconj (d a b o))) = tabulate filters BJ /\
    forall re im bre bim,
      Re (Csum (fun o => Csum (fun p => d (fst p) (snd p) o *
          Cconv kh kw channels 1 1 x (fun k l i o => (re k l i o, - im k l i o)%R) (fun o => (bre o, - bim o)%R) p o)%C (sites oh ow)) (seq 0 filters)) =
      (Rsum (fun o => Rsum (fun t => Re (Cconj (KJ (fst (fst t)) (snd (fst t)) (snd t) o)) * re (fst (fst t)) (snd (fst t)) (snd t) o +
                                     Im (Cconj (KJ (fst (fst t)) (snd (fst t)) (snd t) o)) * im (fst (fst t)) (snd (fst t)) (snd t) o)
              (taps kh kw channels)) (seq 0 filters) +
       Rsum (fun o => Re (Cconj (BJ o)) * bre o + Im (Cconj (BJ o)) * bim o) (seq 0 filters))%R.
Proof.
  intros oh ow kh kw channels filters x d H1 H2 H3 H4 H5 Hx. eexists _, _. split; [now apply conv_kernel|]. split; [apply conv_bias|].
  intros re im bre bim.
  transitivity (Re (Csum (fun o => Csum (fun p => (d (fst p) (snd p) o * (Csum (fun t => x (fst p + fst (fst t))%nat (snd p + snd (fst t))%nat (snd t) *
    (re (fst (fst t)) (snd (fst t)) (snd t) o, - im (fst (fst t)) (snd (fst t)) (snd t) o)%R) (taps kh kw channels) + (bre o, - bim o)%R))%C) (sites oh ow)) (seq 0 filters))).
  - f_equal. apply Csum_ext. intros o _. apply Csum_ext. intros p _. unfold Cconv. do 2 f_equal. apply Csum_ext. intros [[k l] i] _. cbn [fst snd].
    now rewrite !Nat.mul_1_r.
  - rewrite (complex_functional (fun p o => d (fst p) (snd p) o) (fun p t => x (fst p + fst (fst t))%nat (snd p + snd (fst t))%nat (snd t))
      (fun t o => re (fst (fst t)) (snd (fst t)) (snd t) o) (fun t o => im (fst (fst t)) (snd (fst t)) (snd t) o) bre bim) by (intros; apply Hx).
    f_equal; apply Rsum_ext; intros o _.
    + apply Rsum_ext. intros t _. now rewrite total_C.
    + now rewrite total_C.
Qed.
Print Assumptions C49_complex_conv2d_real_input.
Example C49_complex_conv2d_real_input_ex : forall a b c : nat, Im (RtoC (INR (a + b + c))) = 0%R. Proof. reflexivity. Qed.

(** A complex layer whose input is not real (every complex layer after the first): the input is not conjugated as it should, and the gradient of the
    second variable is wrong. Here a dense layer with one input, one output, which is the prediction: the gradient of its real part is 1. *)
Theorem C49_complex_input_refuted : exists x : C, exists jre jim,
  complex_values_jacobians_to_real_parts [concat (dense_kernel_jacobian Cmult [x] [C1])] = [[jre]; [jim]] /\
  ~ forall re im : R, Re (x * (re, - im)%R)%C = (jre * re + jim * im)%R.
Proof.
  exists (0, 1)%R. eexists _, _. split; [reflexivity|]. intros H. specialize (H 0%R 1%R).
  unfold Re, Im, Cconj, Cmult, C1 in H. cbn [fst snd] in H. lra.
Qed.
Print Assumptions C49_complex_input_refuted.

(** Which layers are supported. *)
Theorem C49_supported : forall l, check_layer l = Ok tt <->
  kind l <> OtherLayer /\ act l <> OtherActivation /\ (kind l <> Dense -> kind l <> ComplexDense -> pad l = Valid /\ forall s, In s (strides l) -> s = 1).
Proof.
  intros [k a p s d u]. unfold check_layer. cbn [kind act pad strides].
  assert (F : forallb (fun s => s =? 1) s = true <-> forall x, In x s -> x = 1).
  { rewrite forallb_forall. split; intros H x Hx; specialize (H x Hx); now apply Nat.eqb_eq. }
  rewrite <- F. generalize (forallb (fun s => s =? 1) s) as q. intros q. clear.
  destruct k, a, p, q; cbn [linear_activation]; split; intros H; try discriminate; try reflexivity;
    try (split; [discriminate|split; [discriminate|intros ? ?; try congruence; split; reflexivity]]);
    destruct H as (H1 & H2 & H3); try congruence; destruct H3 as [H3 H4]; discriminate.
Qed.
Print Assumptions C49_supported.
Example C49_supported_ex :
  check_layer {| kind := Conv2D; act := Linear; pad := Valid; strides := [1; 1]; dilation_rate := [2; 2]; use_bias := true |} = Ok tt /\
  check_layer {| kind := ComplexConv1D; act := NoActivation; pad := Valid; strides := [2]; dilation_rate := [1]; use_bias := true |} = Err AssertionError /\
  check_layer {| kind := OtherLayer; act := NoActivation; pad := Valid; strides := []; dilation_rate := []; use_bias := true |} = Err GenericException.
Proof. split; [|split]; reflexivity. Qed.

(** What the other layers raise. *)
Theorem C49_unsupported : forall l, check_layer l <> Ok tt -> check_layer l = Err (match kind l with OtherLayer => GenericException | _ => AssertionError end).
Proof.
  intros [k a p s d u]. unfold check_layer. cbn [kind act pad strides]. generalize (forallb (fun s => s =? 1) s) as q. intros q. destruct k, a, p, q; cbn [linear_activation]; congruence.
Qed.
Print Assumptions C49_unsupported.
Example C49_unsupported_ex : check_layer {| kind := Dense; act := OtherActivation; pad := Valid; strides := []; dilation_rate := []; use_bias := true |} = Err AssertionError.
Proof. reflexivity. Qed.

(** The list follows the order of the weights: layer by layer kernel then bias, for complex layers the real variable before the imaginary one. *)
Theorem C49_order : forall layers, (forall l, In l layers -> check_layer (fst l) = Ok tt) ->
  gradient_per_example layers = Ok (flat_map (fun l => match snd l with
    | RealJacobians j => j
    | ComplexJacobians j => flat_map (fun k => [map Re k; map (fun z => (- Im z)%R) k]) j
    end) layers).
Proof.
  induction layers as [|[l j] t IH]; intros H; [reflexivity|]. cbn [gradient_per_example flat_map]. pose proof (H (l, j) (or_introl eq_refl)) as E. cbn [fst] in E. rewrite E, IH by (intros; apply H; now right).
  cbn [bind snd]. do 2 f_equal. destruct j as [j|j]; [reflexivity|]. unfold complex_values_jacobians_to_real_parts.
  clear. induction j as [|k j IHj]; [reflexivity|]. cbn [flat_map app]. now rewrite IHj, !map_map.
Qed.
Print Assumptions C49_order.
Example C49_order_ex :
  let l t := {| kind := t; act := NoActivation; pad := Valid; strides := [1]; dilation_rate := [1]; use_bias := true |} in
  gradient_per_example [(l ComplexDense, ComplexJacobians (kernel_and_bias (l ComplexDense) [(1, 2)%R] [(3, 4)%R])); (l Dense, RealJacobians [[5%R]])] =
  Ok [[1%R]; [(- 2)%R]; [3%R]; [(- 4)%R]; [5%R]].
Proof. reflexivity. Qed.

(** One entry for every variable of the layers: the bias only where the layer has one. *)
Theorem C49_variables : forall layers : list (layer_config * ((list R * list R) + (list C * list C))),
  (forall l, In l layers -> check_layer (fst l) = Ok tt) ->
  gradient_per_example (map (fun l => (fst l, match snd l with
    | inl (kernel, bias) => RealJacobians (kernel_and_bias (fst l) kernel bias)
    | inr (kernel, bias) => ComplexJacobians (kernel_and_bias (fst l) kernel bias)
    end)) layers) =
  Ok (concat (map (fun l => match snd l with
    | inl (kernel, bias) => kernel :: if use_bias (fst l) then [bias] else []
    | inr (kernel, bias) => map Re kernel :: map (fun z => (- Im z)%R) kernel ::
                            if use_bias (fst l) then [map Re bias; map (fun z => (- Im z)%R) bias] else []
    end) layers)).
Proof.
  intros layers H. rewrite C49_order.
  - f_equal. rewrite flat_map_concat_map, map_map. f_equal. apply map_ext. intros [l [[k b]|[k b]]]; cbn [fst snd]; unfold kernel_and_bias;
      destruct (use_bias l); reflexivity.
  - intros l Hl. apply in_map_iff in Hl. destruct Hl as (l' & <- & Hl). cbn [fst]. now apply H.
Qed.
Print Assumptions C49_variables.
Example C49_variables_ex : check_layer {| kind := Conv2D; act := Linear; pad := Valid; strides := [1; 1]; dilation_rate := [1; 1]; use_bias := false |} = Ok tt.
Proof. reflexivity. Qed.
