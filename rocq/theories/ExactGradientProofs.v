(** Derivative of the energy with respect to a parameter of the log amplitudes. *)
From Coq Require Import List ZArith Reals Bool Arith Lia Lra Permutation.
From Verif Require Import Base Cplx AutoregressiveSpec AutoregressiveProofs ObservableModel ObservableSpec ObservableProofs
  ExactModel ExactSpec ExactProofs.
Import ListNotations.
Local Open Scope R_scope.

(** * Calculus *)
Lemma limit_ext (f g : R -> R) x d : (forall t, f t = g t) -> derivable_pt_lim f x d -> derivable_pt_lim g x d.
Proof.
  intros E D eps He. destruct (D eps He) as [delta Hd]. exists delta. intros h Hh Hlt. rewrite <- !E. auto.
Qed.
Lemma limit_value (f : R -> R) x d d' : d = d' -> derivable_pt_lim f x d -> derivable_pt_lim f x d'.
Proof. now intros ->. Qed.

Lemma Cderive_ext f g x d : (forall t, f t = g t) -> Cderive f x d -> Cderive g x d.
Proof.
  intros E [A B]. split; [apply (limit_ext (fun t => Re (f t)))|apply (limit_ext (fun t => Im (f t)))]; auto; intros; now rewrite E.
Qed.
Lemma Cderive_value f x d d' : d = d' -> Cderive f x d -> Cderive f x d'.
Proof. now intros ->. Qed.
Lemma Cderive_const c x : Cderive (fun _ => c) x C0.
Proof. split; apply derivable_pt_lim_const. Qed.
Lemma Cderive_plus f g x a b : Cderive f x a -> Cderive g x b -> Cderive (fun t => (f t + g t)%C) x (a + b)%C.
Proof.
  intros [A1 A2] [B1 B2]. split.
  - apply (limit_ext (plus_fct (fun t => Re (f t)) (fun t => Re (g t)))); [reflexivity|]. now apply derivable_pt_lim_plus.
  - apply (limit_ext (plus_fct (fun t => Im (f t)) (fun t => Im (g t)))); [reflexivity|]. now apply derivable_pt_lim_plus.
Qed.
Lemma Cderive_conj f x a : Cderive f x a -> Cderive (fun t => Cconj (f t)) x (Cconj a).
Proof.
  intros [A B]. split; [exact A|].
  apply (limit_ext (opp_fct (fun t => Im (f t)))); [reflexivity|]. now apply derivable_pt_lim_opp.
Qed.
Lemma Cderive_scal c f x a : Cderive f x a -> Cderive (fun t => (c * f t)%C) x (c * a)%C.
Proof.
  intros [A B]. split.
  - apply (limit_ext (minus_fct (mult_real_fct (Re c) (fun t => Re (f t))) (mult_real_fct (Im c) (fun t => Im (f t))))); [reflexivity|].
    apply (limit_value _ _ (Re c * Re a - Im c * Im a)); [reflexivity|].
    apply derivable_pt_lim_minus; now apply derivable_pt_lim_scal.
  - apply (limit_ext (plus_fct (mult_real_fct (Re c) (fun t => Im (f t))) (mult_real_fct (Im c) (fun t => Re (f t))))); [reflexivity|].
    apply (limit_value _ _ (Re c * Im a + Im c * Re a)); [reflexivity|].
    apply derivable_pt_lim_plus; now apply derivable_pt_lim_scal.
Qed.
Lemma Cderive_exp f x a : Cderive f x a -> Cderive (fun t => Cexp (f t)) x (Cexp (f x) * a)%C.
Proof.
  intros [A B].
  assert (E : derivable_pt_lim (comp exp (fun t => Re (f t))) x (exp (Re (f x)) * Re a))
    by (apply derivable_pt_lim_comp; [exact A|apply derivable_pt_lim_exp]).
  assert (Co : derivable_pt_lim (comp cos (fun t => Im (f t))) x (- sin (Im (f x)) * Im a))
    by (apply derivable_pt_lim_comp; [exact B|apply derivable_pt_lim_cos]).
  assert (Si : derivable_pt_lim (comp sin (fun t => Im (f t))) x (cos (Im (f x)) * Im a))
    by (apply derivable_pt_lim_comp; [exact B|apply derivable_pt_lim_sin]).
  split.
  - apply (limit_ext (mult_fct (comp exp (fun t => Re (f t))) (comp cos (fun t => Im (f t))))); [reflexivity|].
    eapply limit_value; [|apply (derivable_pt_lim_mult _ _ _ _ _ E Co)].
    unfold comp, Cexp, Cmult, Re, Im. cbn [fst snd]. ring.
  - apply (limit_ext (mult_fct (comp exp (fun t => Re (f t))) (comp sin (fun t => Im (f t))))); [reflexivity|].
    eapply limit_value; [|apply (derivable_pt_lim_mult _ _ _ _ _ E Si)].
    unfold comp, Cexp, Cmult, Re, Im. cbn [fst snd]. ring.
Qed.
Lemma Cderive_sum {A} (f : A -> R -> C) (d : A -> C) x (l : list A) :
  (forall a, In a l -> Cderive (f a) x (d a)) -> Cderive (fun t => Csum (fun a => f a t) l) x (Csum d l).
Proof.
  induction l as [|a l IH]; intros HD.
  - exact (Cderive_const C0 x).
  - apply (Cderive_ext (fun t => (f a t + Csum (fun b => f b t) l)%C)); [reflexivity|].
    apply (Cderive_value _ _ (d a + Csum d l)%C); [reflexivity|].
    apply Cderive_plus; [apply HD; now left|]. apply IH. intros b Hb. apply HD. now right.
Qed.

(** * Norm and bracket *)
Section Family.
  Context (n : nat) (H : list Z -> list Z -> C) (lp : R -> list Z -> C) (d : list Z -> C) (x : R).
  Context (HD : forall s, In s (spin_configs n) -> Cderive (fun t => lp t s) x (d s)).
  Let psi (s : list Z) : C := Cexp (lp x s).

  Lemma norm_derivative :
    derivable_pt_lim (fun t => norm2 n (lp t)) x (Rsum (fun s => 2 * Re (RtoC (born (lp x s)) * d s)%C) (spin_configs n)).
  Proof.
    apply (limit_ext (fun t => Re (Csum (fun s => Cexp (Cconj (lp t s) + lp t s)%C) (spin_configs n)))).
    { intros t. rewrite Re_Csum. unfold norm2. apply Rsum_ext. intros s _. unfold born.
      rewrite Cexp_plus, Cexp_conj. unfold Cmult, Cconj, Cnorm2, Re. cbn [fst snd]. ring. }
    eapply limit_value.
    2: { apply (Cderive_sum (fun s t => Cexp (Cconj (lp t s) + lp t s)%C)
           (fun s => (Cexp (Cconj (lp x s) + lp x s) * (Cconj (d s) + d s))%C)).
         intros s Hs. apply (Cderive_exp (fun t => (Cconj (lp t s) + lp t s)%C)).
         apply Cderive_plus; [apply (Cderive_conj (fun t => lp t s))|]; now apply HD. }
    rewrite Re_Csum. apply Rsum_ext. intros s _. unfold born. rewrite Cexp_plus, Cexp_conj.
    unfold Cmult, Cconj, Cnorm2, RtoC, Re, Cplus. cbn [fst snd]. ring.
  Qed.

  Lemma braket_derivative : hermitian n H ->
    derivable_pt_lim (fun t => Re (braket n H (fun s => Cexp (lp t s)))) x
      (Rsum (fun s => 2 * Re (psi s * Cconj (apply_matrix n H psi s) * d s)%C) (spin_configs n)).
  Proof.
    intros HH. set (l := spin_configs n) in *.
    apply (limit_ext (fun t => Re (Csum (fun s => Csum (fun u => (H s u * Cexp (Cconj (lp t s) + lp t u))%C) l) l))).
    { intros t. f_equal. unfold braket. fold l. apply Csum_ext. intros s _. unfold apply_matrix. fold l. rewrite <- Csum_scal.
      apply Csum_ext. intros u _. rewrite Cexp_plus, Cexp_conj. ring. }
    eapply limit_value.
    2: { apply (Cderive_sum (fun s t => Csum (fun u => (H s u * Cexp (Cconj (lp t s) + lp t u))%C) l)
           (fun s => Csum (fun u => (H s u * (Cexp (Cconj (lp x s) + lp x u) * (Cconj (d s) + d u)))%C) l)).
         intros s Hs. apply (Cderive_sum (fun u t => (H s u * Cexp (Cconj (lp t s) + lp t u))%C)
           (fun u => (H s u * (Cexp (Cconj (lp x s) + lp x u) * (Cconj (d s) + d u)))%C)).
         intros u Hu. apply (Cderive_scal (H s u) (fun t => Cexp (Cconj (lp t s) + lp t u)%C)).
         apply (Cderive_exp (fun t => (Cconj (lp t s) + lp t u)%C)).
         apply Cderive_plus; [apply (Cderive_conj (fun t => lp t s))|]; now apply HD. }
    set (F := fun s => (psi s * Cconj (apply_matrix n H psi s) * d s)%C).
    assert (E : Csum (fun s => Csum (fun u => (H s u * (Cexp (Cconj (lp x s) + lp x u) * (Cconj (d s) + d u)))%C) l) l
                = (Cconj (Csum F l) + Csum F l)%C).
    { transitivity (Csum (fun s => Csum (fun u => (Cconj (psi s) * (H s u * psi u) * Cconj (d s))%C) l) l +
                    Csum (fun s => Csum (fun u => (Cconj (psi s) * H s u * (psi u * d u))%C) l) l)%C.
      - rewrite <- Csum_plus. apply Csum_ext. intros s _. rewrite <- Csum_plus. apply Csum_ext. intros u _.
        rewrite Cexp_plus, Cexp_conj. unfold psi. ring.
      - f_equal.
        + rewrite Csum_conj. apply Csum_ext. intros s _. unfold F, apply_matrix. rewrite !Cconj_mult, Cconj_conj. fold l.
          rewrite Csum_scal_r, Csum_scal. reflexivity.
        + rewrite Csum_exchange. apply Csum_ext. intros u Hu. unfold F, apply_matrix. fold l.
          rewrite Csum_conj, <- Csum_scal, <- Csum_scal_r. apply Csum_ext. intros s Hs.
          rewrite Cconj_mult, (HH s u Hs Hu). ring. }
    rewrite E, Re_plus, Re_conj, Re_Csum, <- Rsum_plus. apply Rsum_ext. intros s _. unfold F. ring.
  Qed.

  Definition coefficient (s : list Z) : C := (contribution n H (lp x) s - RtoC (probability n (lp x) s) * result_energy n H (lp x))%C.

  Lemma energy_derivative : hermitian n H ->
    derivable_pt_lim (fun t => Re (result_energy n H (lp t))) x (Rsum (fun s => 2 * Re (coefficient s * d s)%C) (spin_configs n)).
  Proof.
    intros HH. set (N := norm2 n (lp x)). assert (HN : 0 < N) by apply norm2_pos.
    set (B := Re (braket n H psi)).
    pose proof (expectation_real n H (lp x) HH) as [HI HE].
    apply (limit_ext (div_fct (fun t => Re (braket n H (fun s => Cexp (lp t s)))) (fun t => norm2 n (lp t)))).
    { intros t. rewrite (proj2 (expectation_real n H (lp t) HH)). unfold expectation, Cscale, Re, div_fct. cbn [fst]. field.
      apply Rgt_not_eq, norm2_pos. }
    eapply limit_value; [|apply derivable_pt_lim_div; [now apply braket_derivative|apply norm_derivative|]].
    2: { apply Rgt_not_eq, norm2_pos. }
    fold N. change (fun s => Cexp (lp x s)) with psi. fold B.
    set (l := spin_configs n).
    assert (HB : result_energy n H (lp x) = RtoC (B / N)).
    { rewrite HE. apply C_eq; [|rewrite HI; reflexivity]. unfold expectation, B, N, psi, Cscale, RtoC, Re. cbn [fst]. field.
      apply Rgt_not_eq, norm2_pos. }
    unfold coefficient. rewrite HB.
    assert (Hsq : Rsqr N <> 0) by (unfold Rsqr; nra).
    apply (Rmult_eq_reg_l (Rsqr N)); [|exact Hsq].
    change (Re (braket n H (fun s => Cexp (lp x s)))) with B. change (norm2 n (lp x)) with N.
    set (u := Rsum (fun s => 2 * Re (psi s * Cconj (apply_matrix n H psi s) * d s)%C) l).
    set (v := Rsum (fun s => 2 * Re (RtoC (born (lp x s)) * d s)%C) l).
    replace (Rsqr N * ((u * N - v * B) / Rsqr N)) with (N * u + - B * v) by (field; exact Hsq).
    unfold u, v.
    transitivity (Rsum (fun s => N * (2 * Re (psi s * Cconj (apply_matrix n H psi s) * d s)%C) + (- B) * (2 * Re (RtoC (born (lp x s)) * d s)%C)) l).
    { rewrite Rsum_plus, (Rsum_scal (- B)), !Rsum_scal. reflexivity. }
    rewrite <- (Rsum_scal (Rsqr N)). apply Rsum_ext. intros s _. unfold contribution, probability. fold N. change (fun s0 => Cexp (lp x s0)) with psi. fold (psi s).
    set (z := (psi s * Cconj (apply_matrix n H psi s))%C). set (b := born (lp x s)).
    unfold Rsqr, Cscale, RtoC, Cminus, Cmult, Re. cbn [fst snd]. field. lra.
  Qed.
End Family.
