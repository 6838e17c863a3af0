(** C94: the layer that records histograms of the wave function. *)
From Coq Require Import List Reals String Lra Lia.
From Verif Require Import Base Cplx ComplexConvModel ComplexConvProofs HistogramsModel.
Import ListNotations.
Local Open Scope R_scope.

Lemma cos_one d : cos d = 1 -> - (2 * PI) < d < 2 * PI -> d = 0.
Proof.
  intros E B. assert (S : sin (d / 2) = 0).
  { pose proof (cos_2a_sin (d / 2)) as Q. replace (2 * (d / 2)) with d in Q by field. nra. }
  destruct (Rtotal_order d 0) as [L|[Z|G]]; [|exact Z|].
  - pose proof (sin_gt_0 (- (d / 2)) ltac:(lra) ltac:(lra)) as P. rewrite sin_neg in P. lra.
  - pose proof (sin_gt_0 (d / 2) ltac:(lra) ltac:(lra)). lra.
Qed.
Lemma same_direction a b : Cexp (0, a) = Cexp (0, b) -> 0 <= a < 2 * PI -> 0 <= b < 2 * PI -> a = b.
Proof.
  intros E A B. unfold Cexp in E. cbn [fst snd] in E. rewrite exp_0 in E. injection E as E1 E2. rewrite !Rmult_1_l in E1, E2.
  enough (a - b = 0) by lra. apply cos_one; [|lra]. rewrite cos_minus, E1, E2. pose proof (sin2_cos2 b) as Q. unfold Rsqr in Q. lra.
Qed.

(** The predictions are returned as they are. The recorded values determine the wave function: "magnitude" is the logarithm of |psi|^2, and "phase" is an angle of psi.
    "normalized_phase" is the angle of psi in [0, 2 pi), so two entries agree in it exactly when their wave functions have the same direction. *)
Theorem C94_histograms : forall (x : list C), exists magnitude phase normalized,
  histograms_call x = (x, [("magnitude", magnitude); ("phase", phase); ("normalized_phase", normalized)]%string) /\
  List.length magnitude = List.length x /\ List.length phase = List.length x /\ List.length normalized = List.length x /\
  forall i z, nth_error x i = Some z -> exists m p q,
    nth_error magnitude i = Some m /\ nth_error phase i = Some p /\ nth_error normalized i = Some q /\
    m = ln (Cnorm2 (Cexp z)) /\ Cexp z = (Cexp (RtoC (m / 2)) * Cexp (0, p))%C /\ Cexp z = (Cexp (RtoC (m / 2)) * Cexp (0, q))%C /\ 0 <= q < 2 * PI /\
    forall j z' q', nth_error x j = Some z' -> nth_error normalized j = Some q' ->
      (q = q' <-> exists r, 0 < r /\ Cexp z' = (RtoC r * Cexp z)%C).
Proof.
  intros x. pose proof PI_RGT_0 as PP. eexists _, _, _. split; [reflexivity|]. rewrite !map_length. repeat (split; [reflexivity|]).
  intros i z Hz. exists (2 * Re z), (Im z), (floormod (Im z) (2 * PI)). split; [now rewrite nth_error_map, Hz|]. split; [now rewrite nth_error_map, Hz|].
  split; [now rewrite nth_error_map, Hz|]. split; [now rewrite Cnorm2_exp, ln_exp|].
  assert (SP : forall u v, Cexp (u, v) = (Cexp (RtoC (2 * u / 2)) * Cexp (0, v))%C).
  { intros u v. rewrite <- Cexp_plus. f_equal. apply C_eq; unfold Re, Im, Cplus, RtoC; cbn [fst snd]; field. }
  split; [destruct z; apply SP|]. split; [destruct z as [u v]; rewrite <- (floormod_exp u v); apply SP|]. split; [apply floormod_range; lra|].
  intros j z' q' Hz' Hq. rewrite nth_error_map, Hz' in Hq. cbn in Hq. injection Hq as <-. destruct z as [u v], z' as [u' v']. unfold Im. cbn [snd].
  split.
  - intros E. exists (exp (u' - u)). split; [apply exp_pos|]. rewrite <- (floormod_exp u v), <- (floormod_exp u' v'), E, <- Cexp_RtoC, <- Cexp_plus. f_equal.
    apply C_eq; unfold Re, Im, Cplus, RtoC; cbn [fst snd]; ring.
  - intros (r & Hr & E). apply same_direction; [|apply floormod_range; lra|apply floormod_range; lra]. rewrite !floormod_exp.
    unfold Cexp, Cmult, RtoC in *. cbn [fst snd] in *. injection E as E1 E2. rewrite exp_0, !Rmult_1_l.
    pose proof (exp_pos u) as Pu. pose proof (exp_pos u') as Pu'. set (a := exp u) in *. set (b := exp u') in *.
    assert (N : b * b = (r * a) * (r * a)).
    { pose proof (sin2_cos2 v) as Q. pose proof (sin2_cos2 v') as Q'. unfold Rsqr in Q, Q'.
      transitivity ((b * cos v') * (b * cos v') + (b * sin v') * (b * sin v')).
      - replace (b * b) with (b * b * (sin v' * sin v' + cos v' * cos v')) by (rewrite Q'; ring). ring.
      - rewrite E1, E2. replace (r * a * (r * a)) with (r * a * (r * a) * (sin v * sin v + cos v * cos v)) by (rewrite Q; ring). ring. }
    assert (BA : b = r * a).
    { apply Rsqr_inj; [lra|apply Rlt_le, Rmult_lt_0_compat; lra|exact N]. }
    assert (NZ : b <> 0) by lra.
    f_equal; apply (Rmult_eq_reg_l b); try exact NZ; [rewrite E1, BA|rewrite E2, BA]; ring.
Qed.
Print Assumptions C94_histograms.
Example C94_histograms_ex : nth_error [(0, 0); (1, 2 * PI)] 1 = Some (1, 2 * PI) /\ Cexp (1, 2 * PI) = (RtoC (exp 1) * Cexp (0, 0))%C.
Proof.
  split; [reflexivity|]. unfold Cexp, Cmult, RtoC. cbn [fst snd]. rewrite cos_2PI, sin_2PI, cos_0, sin_0, exp_0. apply C_eq; unfold Re, Im; cbn [fst snd]; ring.
Qed.

(** Refuted for "phase": entries with the same wave function are recorded at different places, any number of turns apart. *)
Theorem C94_phase_refuted : forall (u v : R) (n : nat), (0 < n)%nat -> let z := (u, v) in let z' := (u, v + 2 * INR n * PI) in
  Cexp z' = Cexp z /\ exists m p q, histograms_call [z; z'] = ([z; z'], [("magnitude", [m; m]); ("phase", [p; p + 2 * INR n * PI]); ("normalized_phase", [q; q])]%string) /\
    p + 2 * INR n * PI <> p.
Proof.
  intros u v n Hn z z'. pose proof PI_RGT_0 as PP. assert (E : forall w, Cexp (w, v + 2 * INR n * PI) = Cexp (w, v)).
  { intros w. unfold Cexp. cbn [fst snd]. now rewrite cos_period, sin_period. }
  split; [apply E|]. exists (2 * u), v, (floormod v (2 * PI)). split.
  - unfold histograms_call, z, z'. cbn [map Re Im fst snd]. replace (floormod (v + 2 * INR n * PI) (2 * PI)) with (floormod v (2 * PI)); [reflexivity|].
    apply same_direction; [rewrite !floormod_exp; symmetry; apply E|apply floormod_range; lra|apply floormod_range; lra].
  - assert (0 < INR n) by now apply lt_0_INR. nra.
Qed.
Print Assumptions C94_phase_refuted.
(** One turn: the amplitude 1 is recorded at 0 and at 2 pi. *)
Example C94_phase_ex : (0 < 1)%nat /\ snd (nth 1 (snd (histograms_call [(0, 0); (0, 0 + 2 * INR 1 * PI)])) (""%string, [])) = [0; 2 * PI].
Proof. split; [lia|]. cbn. f_equal. f_equal. ring. Qed.
