(** C45: complex layers implement complex arithmetic. *)
From Coq Require Import List ZArith Arith Bool Reals Lra.
From Verif Require Import Base Cplx ComplexModel ComplexSpec ComplexProofs.
Import ListNotations.
Local Open Scope R_scope.

(** Any bilinear operation of real tensors (every convolution, with any stride, padding and dilation) is turned into the same operation of
    complex tensors. *)
Theorem C45_complex_convolution : forall (pairs : list (list (nat * nat))) (x kernel : list C),
  keras_conv_to_complex_conv (real_bilinear pairs) x kernel = complex_bilinear pairs x kernel.
Proof. exact complex_conv_ok. Qed.
Print Assumptions C45_complex_convolution.
(** A one dimensional convolution of three complex numbers with a kernel of two: i*1 + 1*i = 2i and 1*1 + 2*i. *)
Example C45_convolution_ex :
  keras_conv_to_complex_conv (real_bilinear [[(0, 0); (1, 1)]; [(1, 0); (2, 1)]]%nat) [(0, 1); (1, 0); (2, 0)] [(1, 0); (0, 1)]
  = [(0, 2); (1, 2)].
Proof. rewrite C45_complex_convolution. unfold complex_bilinear. cbn. unfold Cmult, Cplus, C0. cbn [fst snd]. repeat f_equal; ring. Qed.

(** A complex weight starts at the value that the initializer asks for, although its imaginary part is stored with the opposite sign. *)
Theorem C45_weight_starts_at_initializer : forall re im : list R,
  complex_weight_value (add_complex_weight_variables {| real_part := re; imag_part := im |}) = map2 (fun a b => (a, b)) re im
  /\ snd (add_complex_weight_variables {| real_part := re; imag_part := im |}) = map Ropp im.
Proof.
  intros re im. split; [exact (weight_starts_at _)|].
  cbn. unfold negate_decorator. apply map_ext. intros a. ring.
Qed.
Print Assumptions C45_weight_starts_at_initializer.
Example C45_weight_ex : complex_weight_value (add_complex_weight_variables {| real_part := [1; 2]; imag_part := [3; 4] |}) = [(1, 3); (2, 4)].
Proof. rewrite (proj1 (C45_weight_starts_at_initializer _ _)). reflexivity. Qed.

(** The gradients are taken with respect to the real and the imaginary part of the weight itself, not of the stored conjugate. *)
Theorem C45_gradient_tensors : forall re im : list R, length re = length im ->
  let w := complex_weight_value (re, im) in weights_for_gradient_conjugate (re, im) = (map Re w, map Im w) /\ w = map2 (fun a b => (a, - b)) re im.
Proof.
  intros re. cbv zeta. unfold weights_for_gradient_conjugate, complex_weight_value. cbn [fst snd].
  induction re as [|a re IH]; intros [|b im] L; try discriminate L; [split; reflexivity|].
  injection L as L. destruct (IH im L) as [E1 E2]. injection E1 as E3 E4. cbn [map map2 Re Im fst snd]. split.
  - rewrite <- E3, <- E4. reflexivity.
  - rewrite E2. f_equal. f_equal. ring.
Qed.
Print Assumptions C45_gradient_tensors.
Example C45_gradient_tensors_ex : weights_for_gradient_conjugate ([1; 2], [3; 4]) = ([1; 2], [3 * -1; 4 * -1]). Proof. reflexivity. Qed.

(** The standard initializer: both parts come from one draw of modulus and phase (the second draw is never used), and the same initializer
    cannot be used for a second weight. *)
Theorem C45_standard_initializer : forall draw1 draw2 : list R * list R, length (fst draw1) = length (snd draw1) ->
  exists s variables, standard_complex_weight draw1 draw2 new_standard = Ok (s, variables) /\
    length (complex_weight_value variables) = length (fst draw1) /\
    (forall k, (k < length (fst draw1))%nat ->
      nth k (complex_weight_value variables) C0 = Cscale (nth k (fst draw1) 0) (Cexp (0, nth k (snd draw1) 0))) /\
    forall d1 d2, standard_complex_weight d1 d2 s = Err GenericException.
Proof. exact standard_weight_ok. Qed.
Print Assumptions C45_standard_initializer.
Example C45_standard_initializer_ex : length (fst ([2; 3], [0; PI])) = length (snd ([2; 3], [0; PI])).
Proof. reflexivity. Qed.

(** log cosh, computed by pulling out the larger exponential. *)
Theorem C45_lncosh : forall z : C, Ccosh z <> C0 -> Cexp (lncosh z) = Ccosh z.
Proof. exact exp_lncosh. Qed.
Print Assumptions C45_lncosh.
(** cosh is not zero at any real number, in particular far away from zero. *)
Example C45_lncosh_ex : Ccosh (RtoC (-1000)) <> C0.
Proof.
  intros E. apply (f_equal Re) in E. unfold Ccosh, Cscale, Cplus, Cexp, Copp, RtoC, Re, C0 in E. cbn [fst snd] in E.
  rewrite Ropp_0, cos_0 in E. assert (0 < exp (-1000)) by apply exp_pos. assert (0 < exp (- -1000)) by apply exp_pos. lra.
Qed.

(** The logarithm is the principal one: exp inverts it everywhere except at zero, it inverts exp when the imaginary part is in (-pi, pi]. *)
Theorem C45_complex_log : forall z : C,
  (z <> C0 -> Cexp (complex_log z) = z /\ - PI < Im (complex_log z) <= PI) /\
  (- PI < Im z <= PI -> complex_log (Cexp z) = z).
Proof.
  intros z. split; [|exact (complex_log_exp z)].
  intros H. split; [exact (exp_complex_log z H)|exact (angle_range z)].
Qed.
Print Assumptions C45_complex_log.
Example C45_complex_log_ex : Cexp (complex_log (-2, 0)) = (-2, 0) /\ complex_log (Cexp (1, 1)) = (1, 1).
Proof.
  assert (P := PI2_1). split.
  - apply C45_complex_log. intros E. injection E. lra.
  - apply C45_complex_log. cbn. lra.
Qed.

(** Outside of that strip complex_log does not invert exp. *)
Theorem C45_log_of_exp_refuted : exists z : C, complex_log (Cexp z) <> z.
Proof.
  exists (0, 2 * PI). intros E. assert (R := angle_range (Cexp (0, 2 * PI))). assert (P := PI_RGT_0).
  apply (f_equal Im) in E. unfold complex_log in E. unfold Im in E. cbn [snd] in E. lra.
Qed.
Print Assumptions C45_log_of_exp_refuted.

(** The activation crelu is the rectifier of both parts. *)
Theorem C45_crelu : forall z : C, 0 <= Re (crelu z) /\ 0 <= Im (crelu z) /\
  (0 <= Re z -> Re (crelu z) = Re z) /\ (0 <= Im z -> Im (crelu z) = Im z) /\ (Re z <= 0 -> Re (crelu z) = 0) /\ (Im z <= 0 -> Im (crelu z) = 0).
Proof. exact crelu_parts. Qed.
Print Assumptions C45_crelu.
Example C45_crelu_ex : crelu (3, -2) = (3, 0).
Proof. destruct (C45_crelu (3, -2)) as (_ & _ & A & _ & _ & B). apply C_eq; [apply A|rewrite B]; cbn; lra. Qed.
