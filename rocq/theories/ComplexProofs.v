(** Lemmas about complex valued layers. *)
From Coq Require Import List ZArith Arith Bool Reals Lia Lra.
From Verif Require Import Base Cplx ComplexModel ComplexSpec.
Import ListNotations.
Local Open Scope R_scope.

Lemma Cmod_pos z : z <> C0 -> 0 < Cmod z.
Proof. intros H. apply sqrt_lt_R0. now apply Cnorm2_pos. Qed.

Lemma Cmod_sq z : Cmod z * Cmod z = Cnorm2 z.
Proof. apply sqrt_sqrt. apply Cnorm2_nonneg. Qed.

Lemma sqrt_1_ratio x y : x <> 0 -> sqrt (1 + (y / x)²) = sqrt (x * x + y * y) / Rabs x.
Proof.
  intros H. replace (1 + (y / x)²) with ((x * x + y * y) / (Rabs x)²).
  - rewrite sqrt_div_alt; [|apply Rsqr_pos_lt, Rabs_no_R0, H]. now rewrite sqrt_Rsqr by apply Rabs_pos.
  - rewrite <- Rsqr_abs. unfold Rsqr. field. exact H.
Qed.

Lemma polar_atan x y : x <> 0 ->
  cos (atan (y / x)) = Rabs x / sqrt (x * x + y * y) /\ sin (atan (y / x)) = y * Rabs x / x / sqrt (x * x + y * y).
Proof.
  intros H. assert (0 < x * x) by nra. assert (0 < x * x + y * y) by nra.
  assert (P := sqrt_lt_R0 _ H1). assert (A := Rabs_no_R0 _ H).
  rewrite cos_atan, sin_atan, sqrt_1_ratio by exact H. split; field; repeat split; auto; lra.
Qed.

Lemma angle_polar z : z <> C0 -> z = (Cmod z * cos (angle z), Cmod z * sin (angle z)).
Proof.
  intros H. assert (M := Cmod_pos z H). revert M. destruct z as [x y]. unfold Cmod, Cnorm2, angle, atan2, Re, Im. cbn [fst snd].
  intros M.
  destruct (Rlt_dec 0 x) as [X|X].
  - destruct (polar_atan x y ltac:(lra)) as [-> ->]. rewrite Rabs_right by lra.
    apply C_eq; unfold Re, Im; cbn [fst snd]; field; lra.
  - destruct (Rlt_dec x 0) as [X'|X'].
    + destruct (polar_atan x y ltac:(lra)) as [Hc Hs]. rewrite Rabs_left in Hc, Hs by lra.
      destruct (Rle_dec 0 y).
      * rewrite neg_cos, neg_sin, Hc, Hs. apply C_eq; unfold Re, Im; cbn [fst snd]; field; lra.
      * replace (atan (y / x) - PI) with (- (PI - atan (y / x))) by ring.
        rewrite cos_neg, sin_neg, cos_minus, sin_minus, cos_PI, sin_PI, Hc, Hs.
        apply C_eq; unfold Re, Im; cbn [fst snd]; field; lra.
    + assert (x = 0) as -> by lra. replace (0 * 0 + y * y) with (y²) in * by (unfold Rsqr; ring).
      rewrite sqrt_Rsqr_abs in *.
      destruct (Rlt_dec 0 y).
      * rewrite cos_PI2, sin_PI2, Rabs_right by lra. apply C_eq; unfold Re, Im; cbn [fst snd]; ring.
      * destruct (Rlt_dec y 0).
        -- rewrite cos_neg, sin_neg, cos_PI2, sin_PI2, Rabs_left by lra. apply C_eq; unfold Re, Im; cbn [fst snd]; ring.
        -- assert (y = 0) as -> by lra. exfalso. apply H. reflexivity.
Qed.

Lemma angle_range z : - PI < angle z <= PI.
Proof.
  assert (P := PI_RGT_0). unfold angle, atan2. destruct z as [x y]. unfold Re, Im. cbn [fst snd].
  assert (B := atan_bound (y / x)).
  destruct (Rlt_dec 0 x); [lra|]. destruct (Rlt_dec x 0) as [X|].
  - destruct (Rle_dec 0 y) as [Y|Y].
    + assert (atan (y / x) <= 0); [|lra].
      rewrite <- atan_0. destruct (Req_dec (y / x) 0) as [E|E]; [rewrite E; lra|].
      left. apply atan_increasing. assert (y / x <= 0); [|lra].
      unfold Rdiv. assert (/ x < 0) by now apply Rinv_lt_0_compat. nra.
    + assert (0 < atan (y / x)); [|lra].
      rewrite <- atan_0. apply atan_increasing. unfold Rdiv. assert (/ x < 0) by now apply Rinv_lt_0_compat. nra.
  - destruct (Rlt_dec 0 y); [lra|]. destruct (Rlt_dec y 0); lra.
Qed.

(** Two angles in the principal range with equal sine and cosine are equal. *)
Lemma angle_unique a b : - PI < a <= PI -> - PI < b <= PI -> cos a = cos b -> sin a = sin b -> a = b.
Proof.
  intros Ha Hb Hc Hs. assert (P := PI_RGT_0).
  assert (S : sin (a - b) = 0). { rewrite sin_minus, Hc, Hs. ring. }
  assert (K : cos (a - b) = 1).
  { rewrite cos_minus, Hc, Hs. replace (cos b * cos b + sin b * sin b) with ((sin b)² + (cos b)²) by (unfold Rsqr; ring).
    apply sin2_cos2. }
  destruct (Req_dec a b) as [|N]; [assumption|exfalso].
  (* |a - b| < 2 PI; the sine vanishes only at 0 and +-PI where the cosine is -1 *)
  assert (forall t, 0 < t < 2 * PI -> sin t = 0 -> cos t = 1 -> False) as F.
  { intros t Ht St Kt. destruct (Rlt_le_dec t PI) as [L|L].
    - assert (0 < sin t) by (apply sin_gt_0; lra). lra.
    - destruct L as [L|L].
      + assert (sin t < 0) by (apply sin_lt_0; lra). lra.
      + rewrite <- L, cos_PI in Kt. lra. }
  destruct (Rlt_le_dec b a).
  - apply (F (a - b)); auto; lra.
  - apply (F (b - a)); [lra| |].
    + replace (b - a) with (- (a - b)) by ring. rewrite sin_neg, S. ring.
    + replace (b - a) with (- (a - b)) by ring. rewrite cos_neg. exact K.
Qed.

Lemma exp_complex_log z : z <> C0 -> Cexp (complex_log z) = z.
Proof.
  intros H. unfold Cexp, complex_log. cbn [fst snd]. rewrite exp_ln by now apply Cmod_pos.
  symmetry. now apply angle_polar.
Qed.

Lemma complex_log_exp z : - PI < Im z <= PI -> complex_log (Cexp z) = z.
Proof.
  intros H. unfold complex_log. rewrite Cmod_exp, ln_exp.
  apply C_eq; [reflexivity|]. unfold Im at 1. cbn [snd].
  assert (N : Cexp z <> C0) by apply Cexp_nonzero.
  assert (E := angle_polar (Cexp z) N). rewrite Cmod_exp in E.
  assert (0 < exp (Re z)) by apply exp_pos.
  injection E as E1 E2. fold (Re z) in *. fold (Im z) in *.
  apply angle_unique; [apply angle_range|exact H| |]; apply (Rmult_eq_reg_l (exp (Re z))); lra.
Qed.

Lemma exp_lncosh z : Ccosh z <> C0 -> Cexp (lncosh z) = Ccosh z.
Proof.
  intros H. unfold lncosh. set (a := RtoC (Rabs (Re z))).
  assert (E : (Cexp (z - a) + Cexp (- z - a) = Cexp (- a) * (Cexp z + Cexp (- z)))%C).
  { replace (z - a)%C with (- a + z)%C by ring. replace (- z - a)%C with (- a + - z)%C by ring.
    rewrite !Cexp_plus. ring. }
  assert (N : (Cexp (z - a) + Cexp (- z - a))%C <> C0).
  { rewrite E. intros Q. apply H. unfold Ccosh.
    assert (Cexp z + Cexp (- z) = C0)%C as ->.
    { replace (Cexp z + Cexp (- z))%C with ((Cexp a * Cexp (- a)) * (Cexp z + Cexp (- z)))%C by (rewrite Cexp_neg; ring).
      rewrite <- (C_ring.(Rmul_assoc)). rewrite Q. ring. }
    apply C_eq; unfold Re, Im; cbn; ring. }
  replace (a - RtoC (ln 2) + complex_log (Cexp (z - a) + Cexp (- z - a)))%C with
    (a + (RtoC (- ln 2) + complex_log (Cexp (z - a) + Cexp (- z - a))))%C by (rewrite RtoC_opp; ring).
  rewrite !Cexp_plus, exp_complex_log by exact N.
  rewrite E, Cexp_RtoC, exp_Ropp, exp_ln by lra. unfold Ccosh. rewrite Cscale_RtoC.
  replace (Cexp a * (RtoC (/ 2) * (Cexp (- a) * (Cexp z + Cexp (- z)))))%C with
    ((Cexp a * Cexp (- a)) * (RtoC (/ 2) * (Cexp z + Cexp (- z))))%C by ring.
  rewrite Cexp_neg. ring.
Qed.

(** * Convolutions *)

Lemma map2_map_both {A B D F} (g : A -> B) (h : A -> D) (f : B -> D -> F) (l : list A) :
  map2 f (map g l) (map h l) = map (fun a => f (g a) (h a)) l.
Proof. induction l; cbn [map map2]; congruence. Qed.

Lemma nth_map_Re l i : nth i (map Re l) 0 = Re (nth i l C0). Proof. change 0 with (Re C0). apply map_nth. Qed.
Lemma nth_map_Im l i : nth i (map Im l) 0 = Im (nth i l C0). Proof. change 0 with (Im C0). apply map_nth. Qed.

Lemma complex_conv_ok pairs x kernel :
  keras_conv_to_complex_conv (real_bilinear pairs) x kernel = complex_bilinear pairs x kernel.
Proof.
  unfold keras_conv_to_complex_conv, real_bilinear, complex_bilinear.
  rewrite !map2_map_both. apply map_ext. intros ps.
  apply C_eq; unfold Re at 1, Im at 1; cbn [fst snd].
  - rewrite <- Rsum_minus, Re_Csum. apply Rsum_ext. intros p _. rewrite !nth_map_Re, !nth_map_Im. reflexivity.
  - rewrite <- Rsum_plus, Im_Csum. apply Rsum_ext. intros p _. rewrite !nth_map_Re, !nth_map_Im. reflexivity.
Qed.

(** * Weights *)

Lemma weight_starts_at i : complex_weight_value (add_complex_weight_variables i) = map2 (fun re im => (re, im)) (real_part i) (imag_part i).
Proof.
  unfold complex_weight_value, add_complex_weight_variables, conjugate_decorator, negate_decorator. cbn [fst snd real_part imag_part].
  f_equal. rewrite map_map. rewrite <- (map_id (imag_part i)) at 2. apply map_ext. intros a. ring.
Qed.

Lemma nth_error_map2' {A B D} (f : A -> B -> D) l1 l2 d1 d2 d i : (i < length l1)%nat -> (i < length l2)%nat ->
  nth i (map2 f l1 l2) d = f (nth i l1 d1) (nth i l2 d2).
Proof.
  revert l2 i; induction l1 as [|a l1 IH]; intros [|b l2] [|i] H1 H2; cbn [length] in *; try lia; cbn [map2 nth]; [reflexivity|].
  apply IH; lia.
Qed.

Lemma standard_weight_ok draw1 draw2 : length (fst draw1) = length (snd draw1) ->
  exists s variables, standard_complex_weight draw1 draw2 new_standard = Ok (s, variables) /\
    length (complex_weight_value variables) = length (fst draw1) /\
    (forall k, (k < length (fst draw1))%nat ->
      nth k (complex_weight_value variables) C0 = Cscale (nth k (fst draw1) 0) (Cexp (0, nth k (snd draw1) 0))) /\
    forall d1 d2, standard_complex_weight d1 d2 s = Err GenericException.
Proof.
  intros L. unfold standard_complex_weight, real_part_initializer, imag_part_initializer, next_complex_number, new_standard.
  cbn [counter drawn Nat.eqb Nat.ltb Nat.leb bind fst snd]. eexists _, _. split; [reflexivity|].
  rewrite weight_starts_at. cbn [real_part imag_part]. split; [|split].
  - rewrite !Base.map2_length. lia.
  - intros k Hk.
    rewrite (nth_error_map2' _ _ _ 0 0) by (rewrite Base.map2_length; lia).
    rewrite !(nth_error_map2' _ _ _ 0 0) by lia.
    unfold Cscale, Cexp. cbn [fst snd]. rewrite exp_0. f_equal; ring.
  - reflexivity.
Qed.

(** * crelu acts on real and imaginary part separately and never produces a negative part *)
Lemma crelu_parts z : 0 <= Re (crelu z) /\ 0 <= Im (crelu z) /\
  (0 <= Re z -> Re (crelu z) = Re z) /\ (0 <= Im z -> Im (crelu z) = Im z) /\ (Re z <= 0 -> Re (crelu z) = 0) /\ (Im z <= 0 -> Im (crelu z) = 0).
Proof.
  destruct z as [x y]. unfold crelu, relu, Re, Im, Rmax. cbn [fst snd].
  destruct (Rle_dec x 0), (Rle_dec y 0); repeat split; intros; try lra.
Qed.
