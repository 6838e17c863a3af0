(** Lemmas for C83: logarithmic derivatives, and the slope of the energy. *)
From Coq Require Import List ZArith Arith Reals Bool Lia Lra.
From Verif Require Import Base OrderingModel OrderingSpec Cplx LatticeSpec AutoregressiveSpec ObservableModel ObservableSpec ObservableProofs ExactModel ExactSpec ExactProofs ExactGradientProofs ExactGeneratorProofs
  ComplexModel ComplexSpec ComplexProofs GradientModel GradientProofs MonteCarloProofs SymmetrySpec RbmModel RbmSpec.
From Verif Require ReconfigurationVecProofs.
Import ListNotations.
Local Open Scope nat_scope.

Lemma Re_exp_log z : Re z = ln (Cmod (Cexp z)).
Proof.
  assert (M : Cmod (Cexp z) = exp (Re z)).
  { unfold Cmod, Cexp, Cnorm2, Re, Im. cbn [fst snd].
    replace (exp (fst z) * cos (snd z) * (exp (fst z) * cos (snd z)) + exp (fst z) * sin (snd z) * (exp (fst z) * sin (snd z)))%R with ((exp (fst z)) * (exp (fst z)) * ((sin (snd z))² + (cos (snd z))²))%R by (unfold Rsqr; ring).
    rewrite sin2_cos2, Rmult_1_r. apply sqrt_square. left. apply exp_pos. }
  rewrite M, ln_exp. reflexivity.
Qed.

Lemma ld_from_exp f x d : Cderive (fun t => Cexp (f t)) x (Cexp (f x) * d)%C -> log_derivative f x d.
Proof.
  intros D. split; [exact D|]. apply (limit_ext (fun t => ln (Cmod (Cexp (f t))))); [intros t; symmetry; apply Re_exp_log|].
  eapply limit_value; [|apply (ln_mod_limit (fun t => Cexp (f t)) x _ D), Cexp_nonzero].
  pose proof (Cnorm2_pos _ (Cexp_nonzero (f x))) as P. set (e := Cexp (f x)) in *. unfold Cmult, Cnorm2, Re, Im in *. cbn [fst snd] in *. field. lra.
Qed.

Lemma ld_smooth f x d : Cderive f x d -> log_derivative f x d.
Proof. intros D. apply ld_from_exp. now apply Cderive_exp. Qed.
Lemma ld_plus f g x a b : log_derivative f x a -> log_derivative g x b -> log_derivative (fun t => (f t + g t)%C) x (a + b)%C.
Proof.
  intros [A _] [B _]. apply ld_from_exp. apply (Cderive_ext (fun t => (Cexp (f t) * Cexp (g t))%C)); [intros t; symmetry; apply Cexp_plus|].
  rewrite Cexp_plus. eapply Cderive_value; [|apply (Cderive_mult (fun t => Cexp (f t)) (fun t => Cexp (g t)) x _ _ A B)]. ring.
Qed.
Lemma ld_sum {A} (f : A -> R -> C) (d : A -> C) x (l : list A) :
  (forall a, In a l -> log_derivative (f a) x (d a)) -> log_derivative (fun t => Csum (fun a => f a t) l) x (Csum d l).
Proof.
  induction l as [|a l IH]; intros HD.
  - apply ld_smooth. exact (Cderive_const C0 x).
  - apply (ld_plus (f a) (fun t => Csum (fun b => f b t) l)); [apply HD; now left|]. apply IH. intros b Hb. apply HD. now right.
Qed.
Lemma ld_ext f g x d : (forall t, f t = g t) -> log_derivative f x d -> log_derivative g x d.
Proof.
  intros E [A _]. apply ld_from_exp. rewrite <- E. apply (Cderive_ext (fun t => Cexp (f t))); [intros t; now rewrite E|exact A].
Qed.

Lemma twice_cosh_half z : Ccosh z = Cscale (/ 2) (twice_cosh z). Proof. reflexivity. Qed.
Lemma cosh_twice z : Ccosh z <> C0 -> twice_cosh z <> C0.
Proof. intros H E. apply H. rewrite twice_cosh_half, E. unfold Cscale, C0, Re, Im. cbn [fst snd]. f_equal; ring. Qed.

Lemma ld_lncosh f x d : Cderive f x d -> Ccosh (f x) <> C0 -> log_derivative (fun t => lncosh (f t)) x (d * complex_tanh (f x))%C.
Proof.
  intros D N. apply ld_from_exp.
  assert (DU : Cderive (fun t => twice_cosh (f t)) x (Cexp (f x) * d + Cexp (- f x) * - d)%C).
  { unfold twice_cosh. apply Cderive_plus; [now apply Cderive_exp|]. apply (Cderive_exp (fun t => (- f t)%C)). now apply Cderive_opp. }
  assert (H0 := cosh_twice _ N).
  assert (NZ : exists e, (0 < e)%R /\ forall t, (Rabs (t - x) < e)%R -> Ccosh (f t) <> C0).
  { assert (T : forall t, twice_cosh (f t) <> C0 -> Ccosh (f t) <> C0).
    { intros t T E. apply T. rewrite twice_cosh_half in E. apply C_eq; [apply (f_equal Re) in E|apply (f_equal Im) in E]; unfold Cscale, C0, Re, Im in *; cbn [fst snd] in *; lra. }
    destruct DU as [D1 D2]. assert (A : (Re (twice_cosh (f x)) <> 0 \/ Im (twice_cosh (f x)) <> 0)%R).
    { destruct (Req_dec (Re (twice_cosh (f x))) 0) as [E1|]; [|now left]. destruct (Req_dec (Im (twice_cosh (f x))) 0) as [E2|]; [|now right]. exfalso. apply H0. now apply C_eq. }
    destruct A as [A|A]; pose proof (Rabs_pos_lt _ A) as P; [destruct (limit_near _ x _ _ D1 P) as (e & He & K)|destruct (limit_near _ x _ _ D2 P) as (e & He & K)]; exists e; (split; [exact He|]); intros t Ht; apply T;
      intros E; apply K in Ht; rewrite E in Ht; unfold C0 in Ht; cbn [Re Im fst snd] in Ht; rewrite Rminus_0_l, Rabs_Ropp in Ht; lra. }
  destruct NZ as (e & He & K). rewrite exp_lncosh by exact N.
  apply (Cderive_local (fun t => (RtoC (/ 2) * twice_cosh (f t))%C) _ x _ e He).
  { intros t Ht. rewrite exp_lncosh by now apply K. rewrite twice_cosh_half, Cscale_RtoC. reflexivity. }
  apply (Cderive_value _ _ (RtoC (/ 2) * (Cexp (f x) * d + Cexp (- f x) * - d))%C); [|now apply Cderive_scal].
  rewrite twice_cosh_half, Cscale_RtoC. unfold complex_tanh, Cdiv.
  transitivity (RtoC (/ 2) * (twice_cosh (f x) * Cinv (twice_cosh (f x))) * (Cexp (f x) - Cexp (- f x)) * d)%C; [rewrite Cmult_inv_r by exact H0; ring|ring].
Qed.

(** * The slope of the energy *)

Lemma exp_same n H (a b : list Z -> C) : (forall s, Cexp (a s) = Cexp (b s)) -> expectation n H a = expectation n H b.
Proof.
  intros E. unfold expectation, norm2, braket, apply_matrix, born. f_equal; [f_equal; apply Rsum_ext; intros s _; now rewrite E|].
  apply Csum_ext. intros s _. rewrite E. f_equal. apply Csum_ext. intros u _. now rewrite E.
Qed.

Lemma energy_slope n H (lp : R -> list Z -> C) d x : hermitian n H -> (forall s, In s (spin_configs n) -> log_derivative (fun t => lp t s) x (d s)) ->
  derivable_pt_lim (fun t => Re (expectation n H (lp t))) x (Rsum (fun s => 2 * Re (gradient_coefficient n H (lp x) s * d s)%C)%R (spin_configs n)).
Proof.
  intros HH HD. pose (g := fun t s => (lp x s + complex_log (Cexp (lp t s) / Cexp (lp x s)))%C).
  assert (Q : forall t s, (Cexp (lp t s) / Cexp (lp x s))%C <> C0).
  { intros t s E. unfold Cdiv in E. apply (Cexp_nonzero (lp t s)). transitivity (Cexp (lp t s) * Cinv (Cexp (lp x s)) * Cexp (lp x s))%C; [|rewrite E; ring].
    replace (Cexp (lp t s) * Cinv (Cexp (lp x s)) * Cexp (lp x s))%C with (Cexp (lp t s) * (Cexp (lp x s) * Cinv (Cexp (lp x s))))%C by ring. rewrite Cmult_inv_r by apply Cexp_nonzero. ring. }
  assert (G : forall t s, Cexp (g t s) = Cexp (lp t s)).
  { intros t s. unfold g. rewrite Cexp_plus, exp_complex_log by apply Q. unfold Cdiv. transitivity (Cexp (lp t s) * (Cexp (lp x s) * Cinv (Cexp (lp x s))))%C; [ring|]. rewrite Cmult_inv_r by apply Cexp_nonzero. ring. }
  assert (Gx : forall s, g x s = lp x s).
  { intros s. unfold g. unfold Cdiv. rewrite Cmult_inv_r by apply Cexp_nonzero. replace (complex_log C1) with C0; [ring|]. unfold complex_log, Cmod, Cnorm2, angle, atan2, C1, Re, Im. cbn [fst snd].
    destruct (Rlt_dec 0 1) as [_|B]; [|exfalso; lra]. replace (1 * 1 + 0 * 0)%R with 1%R by ring. rewrite sqrt_1, ln_1. unfold Rdiv. rewrite Rmult_0_l, atan_0. reflexivity. }
  assert (GD : forall s, In s (spin_configs n) -> Cderive (fun t => g t s) x (d s)).
  { intros s Hs. destruct (HD s Hs) as [D _]. unfold g. apply (Cderive_value _ _ (C0 + d s)%C); [ring|]. apply Cderive_plus; [apply Cderive_const|].
    assert (D' : Cderive (fun t => (Cexp (lp t s) / Cexp (lp x s))%C) x (d s)).
    { apply (Cderive_ext (fun t => (Cinv (Cexp (lp x s)) * Cexp (lp t s))%C)); [intros t; unfold Cdiv; ring|].
      eapply Cderive_value; [|apply Cderive_scal; exact D]. transitivity (Cexp (lp x s) * Cinv (Cexp (lp x s)) * d s)%C; [ring|]. rewrite Cmult_inv_r by apply Cexp_nonzero. ring. }
    assert (U : (Cexp (lp x s) / Cexp (lp x s))%C = C1) by (unfold Cdiv; apply Cmult_inv_r, Cexp_nonzero).
    eapply Cderive_value; [|apply (log_derive (fun t => (Cexp (lp t s) / Cexp (lp x s))%C) x (d s) D'); left; cbv beta; rewrite U; unfold C1, Re; cbn; lra].
    cbv beta. rewrite U. unfold Cdiv. replace (Cinv C1) with C1; [ring|]. unfold Cinv, C1, Cnorm2, Re, Im. cbn [fst snd]. f_equal; field. }
  pose proof (energy_derivative n H g d x GD HH) as D.
  assert (EX : forall t, expectation n H (g t) = expectation n H (lp t)) by (intros t; apply exp_same; intros s; apply G).
  apply (limit_ext (fun t => Re (result_energy n H (g t)))); [intros t; rewrite (proj2 (expectation_real n H (g t) HH)), EX; reflexivity|].
  eapply limit_value; [|exact D]. apply Rsum_ext. intros s _. unfold coefficient. rewrite coefficient_spec.
  assert (GX : g x = lp x) by (apply FunctionalExtensionality.functional_extensionality; exact Gx). now rewrite GX.
Qed.

(** The mean of the local energies is the expectation value. *)
Lemma exact_mean_const n lp c : exact_mean n lp (fun _ => c) = c.
Proof. unfold exact_mean. rewrite Csum_scal_r, Csum_RtoC, Rsum_probability_configs. change (RtoC 1) with C1. ring. Qed.
Lemma exact_mean_plus n lp f g : exact_mean n lp (fun s => (f s + g s)%C) = (exact_mean n lp f + exact_mean n lp g)%C.
Proof. unfold exact_mean. rewrite <- Csum_plus. apply Csum_ext. intros s _. ring. Qed.
Lemma exact_mean_scal n lp c f : exact_mean n lp (fun s => (c * f s)%C) = (c * exact_mean n lp f)%C.
Proof. unfold exact_mean. rewrite <- Csum_scal. apply Csum_ext. intros s _. ring. Qed.
Lemma exact_mean_ext n lp f g : (forall s, In s (spin_configs n) -> f s = g s) -> exact_mean n lp f = exact_mean n lp g.
Proof. intros E. unfold exact_mean. apply Csum_ext. intros s Hs. now rewrite E. Qed.
Lemma exact_mean_conj n lp f : exact_mean n lp (fun s => Cconj (f s)) = Cconj (exact_mean n lp f).
Proof. unfold exact_mean. rewrite Csum_conj. apply Csum_ext. intros s _. rewrite Cconj_mult. f_equal. unfold Cconj, RtoC, Re, Im. cbn [fst snd]. f_equal. ring. Qed.
Lemma exact_mean_energy n H lp : exact_mean n lp (local_energy n H lp) = expectation n H lp.
Proof.
  unfold exact_mean, expectation, braket. rewrite Cscale_RtoC, <- Csum_scal. apply Csum_ext. intros s _. unfold probability, Rdiv. rewrite RtoC_mult. unfold local_energy, born, Cdiv. rewrite <- Cmult_conj.
  transitivity (RtoC (/ norm2 n lp) * (Cconj (Cexp (lp s)) * apply_matrix n H (fun t => Cexp (lp t)) s) * (Cexp (lp s) * Cinv (Cexp (lp s))))%C; [ring|]. rewrite Cmult_inv_r by apply Cexp_nonzero. ring.
Qed.
Lemma covariance_right n lp f g : exact_covariance n lp f g = exact_mean n lp (fun s => (Cconj (f s) * (g s - exact_mean n lp g))%C).
Proof.
  unfold exact_covariance. set (fm := exact_mean n lp f). set (gm := exact_mean n lp g).
  rewrite (exact_mean_ext n lp _ (fun s => (Cconj (f s) * (g s - gm) + (- Cconj fm) * (g s + - gm))%C)).
  - rewrite exact_mean_plus, exact_mean_scal, exact_mean_plus, exact_mean_const. fold gm. ring.
  - intros s _. rewrite Cconj_minus. ring.
Qed.

Lemma Re_Csum_twice {A} (f : A -> C) l : (2 * Re (Csum f l))%R = Rsum (fun s => 2 * Re (f s))%R l.
Proof. rewrite Re_Csum, <- Rsum_scal. reflexivity. Qed.
Lemma slope_of_covariance n H lp N (O : list Z -> nat -> C) (v : nat -> C) :
  Rsum (fun s => 2 * Re (gradient_coefficient n H lp s * row_times N (O s) v)%C)%R (spin_configs n) =
  (2 * Re (row_times N (fun k => Cconj (exact_covariance n lp (fun s => O s k) (local_energy n H lp))) v))%R.
Proof.
  rewrite <- (Re_Csum_twice (fun s => (gradient_coefficient n H lp s * row_times N (O s) v)%C)). f_equal. f_equal.
  transitivity (Csum (fun s => Csum (fun k => (gradient_coefficient n H lp s * (O s k * v k))%C) (seq 0 N)) (spin_configs n)).
  { apply Csum_ext. intros s _. unfold row_times. now rewrite Csum_scal. }
  rewrite Csum_exchange. unfold row_times. apply Csum_ext. intros k _. rewrite covariance_right, <- exact_mean_conj. unfold exact_mean at 1. rewrite <- Csum_scal_r. apply Csum_ext. intros s _.
  rewrite exact_mean_energy, Cconj_mult. unfold gradient_coefficient. rewrite Cconj_conj. ring.
Qed.

(** * The exact matrix is positive *)
Lemma covariance_form n lp N (O : list Z -> nat -> C) (x : nat -> C) :
  (0 <= Re (Csum (fun k => Cconj (x k) * Csum (fun l => exact_covariance n lp (fun s => O s k) (fun s => O s l) * x l) (seq 0 N)) (seq 0 N))%C)%R.
Proof.
  set (m := fun k => exact_mean n lp (fun s => O s k)). set (y := fun s => Csum (fun k => ((O s k - m k) * x k)%C) (seq 0 N)).
  replace (Csum (fun k => Cconj (x k) * Csum (fun l => exact_covariance n lp (fun s => O s k) (fun s => O s l) * x l) (seq 0 N)) (seq 0 N))%C
    with (Csum (fun s => RtoC (probability n lp s * Cnorm2 (y s))) (spin_configs n)).
  - rewrite Csum_RtoC. unfold RtoC, Re. cbn [fst]. apply Rsum_nonneg. intros s _. apply Rmult_le_pos; [|apply Cnorm2_nonneg]. unfold probability, born. apply Rmult_le_pos; [apply Cnorm2_nonneg|].
    left. apply Rinv_0_lt_compat, norm2_pos.
  - transitivity (Csum (fun s => Csum (fun k => Csum (fun l => (Cconj (x k) * (RtoC (probability n lp s) * (Cconj (O s k - m k) * (O s l - m l))) * x l)%C) (seq 0 N)) (seq 0 N)) (spin_configs n)).
    + apply Csum_ext. intros s _. rewrite RtoC_mult, <- Cmult_conj. unfold y.
      transitivity (RtoC (probability n lp s) * (Csum (fun k => Cconj ((O s k - m k) * x k)) (seq 0 N) * Csum (fun l => ((O s l - m l) * x l)%C) (seq 0 N)))%C.
      { rewrite <- Csum_conj. ring. }
      rewrite <- Csum_scal_r, <- Csum_scal. apply Csum_ext. intros k _. rewrite <- !Csum_scal. apply Csum_ext. intros l _. rewrite Cconj_mult. ring.
    + rewrite Csum_exchange. apply Csum_ext. intros k _. rewrite Csum_exchange, <- Csum_scal. apply Csum_ext. intros l _. unfold exact_covariance, exact_mean. rewrite <- Csum_scal_r, <- Csum_scal. apply Csum_ext. intros s _.
      fold (exact_mean n lp (fun s => O s k)). fold (exact_mean n lp (fun s => O s l)). fold (m k) (m l). ring.
Qed.

Lemma form_shift n lp N (O : list Z -> list C) shift (y : nat -> C) :
  (shift * Rsum (fun k => Cnorm2 (y k)) (seq 0 N) <= Re (Csum (fun k => (Cconj (y k) * Csum (fun l => (exact_matrix n lp O (RtoC shift) k l * y l)%C) (seq 0 N))%C) (seq 0 N)))%R.
Proof.
  match goal with |- (_ <= Re ?F)%R => assert (FS : Re F = (Re (Csum (fun k => Cconj (y k) * Csum (fun l => exact_covariance n lp (fun s => nth k (O s) C0) (fun s => nth l (O s) C0) * y l) (seq 0 N)) (seq 0 N))%C + shift * Rsum (fun k => Cnorm2 (y k)) (seq 0 N))%R) end.
  { transitivity (Re (Csum (fun k => Cconj (y k) * Csum (fun l => exact_covariance n lp (fun s => nth k (O s) C0) (fun s => nth l (O s) C0) * y l) (seq 0 N)) (seq 0 N) + Csum (fun k => RtoC (shift * Cnorm2 (y k))) (seq 0 N))%C).
    - f_equal. rewrite <- Csum_plus. apply Csum_ext. intros k K. apply in_seq in K. unfold exact_matrix.
      transitivity (Cconj (y k) * (Csum (fun l => exact_covariance n lp (fun s => nth k (O s) C0) (fun s => nth l (O s) C0) * y l) (seq 0 N) + Csum (fun l => (if k =? l then RtoC shift else C0) * y l) (seq 0 N)))%C.
      { f_equal. rewrite <- Csum_plus. apply Csum_ext. intros l _. ring. }
      assert (Dg : Csum (fun l => ((if k =? l then RtoC shift else C0) * y l)%C) (seq 0 N) = (RtoC shift * y k)%C).
      { transitivity (Csum (fun l => (if k =? l then RtoC shift * y k else C0)%C) (seq 0 N)).
        - apply Csum_ext. intros l _. destruct (Nat.eqb_spec k l) as [<-|]; [reflexivity|ring].
        - rewrite (ReconfigurationVecProofs.Csum_single _ _ k); [now rewrite Nat.eqb_refl|apply seq_NoDup|apply in_seq; lia|]. intros b _ Hb. destruct (Nat.eqb_spec k b); [congruence|reflexivity]. }
      rewrite Dg. match goal with |- (?a * (?b + ?c))%C = _ => replace (a * (b + c))%C with (a * b + a * c)%C by ring end. f_equal.
      unfold RtoC, Cmult, Cconj, Cnorm2, Re, Im. destruct (y k) as [u w]. cbn [fst snd]. f_equal; ring.
    - rewrite Csum_RtoC, Rsum_scal. unfold RtoC, Cplus, Re, Im. cbn [fst snd]. reflexivity. }
  pose proof (covariance_form n lp N (fun s k => nth k (O s) C0) y) as CF. cbv beta in CF. rewrite FS. lra.
Qed.
