(** Complex numbers as pairs of reals, complex exponential, and finite sums over lists in R and C.
    This is mathematical vocabulary shared by models and specifications; it models no FlowKet code. *)
From Coq Require Import Reals List Lra Lia Permutation ZArith.
From Verif Require Import Base.
Import ListNotations.
Local Open Scope R_scope.

Definition C : Type := (R * R)%type.
Definition Re (z : C) : R := fst z.
Definition Im (z : C) : R := snd z.
Definition RtoC (x : R) : C := (x, 0).
Definition C0 : C := (0, 0).
Definition C1 : C := (1, 0).
Definition Cplus (a b : C) : C := (fst a + fst b, snd a + snd b).
Definition Copp (a : C) : C := (- fst a, - snd a).
Definition Cminus (a b : C) : C := (fst a - fst b, snd a - snd b).
Definition Cmult (a b : C) : C := (fst a * fst b - snd a * snd b, fst a * snd b + snd a * fst b).
Definition Cconj (a : C) : C := (fst a, - snd a).
Definition Cscale (r : R) (a : C) : C := (r * fst a, r * snd a).
Definition Cnorm2 (a : C) : R := fst a * fst a + snd a * snd a.
Definition Cexp (a : C) : C := (exp (fst a) * cos (snd a), exp (fst a) * sin (snd a)).

Declare Scope C_scope.
Delimit Scope C_scope with C.
Bind Scope C_scope with C.
Infix "+" := Cplus : C_scope.
Infix "*" := Cmult : C_scope.
Infix "-" := Cminus : C_scope.
Notation "- x" := (Copp x) : C_scope.

Lemma C_eq (a b : C) : Re a = Re b -> Im a = Im b -> a = b.
Proof. destruct a, b; unfold Re, Im; simpl; congruence. Qed.

Ltac csolve := intros; apply C_eq; unfold Re, Im, Cplus, Cmult, Cminus, Copp, Cconj, Cscale, RtoC, C0, C1; simpl; ring.

Lemma C_ring : ring_theory C0 C1 Cplus Cmult Cminus Copp eq.
Proof. constructor; csolve. Qed.
Add Ring C_ring_inst : C_ring.

Lemma Cconj_plus a b : Cconj (a + b)%C = (Cconj a + Cconj b)%C. Proof. revert a b; csolve. Qed.
Lemma Cconj_minus a b : Cconj (a - b)%C = (Cconj a - Cconj b)%C. Proof. revert a b; csolve. Qed.
Lemma Cconj_mult a b : Cconj (a * b)%C = (Cconj a * Cconj b)%C. Proof. revert a b; csolve. Qed.
Lemma Cconj_conj a : Cconj (Cconj a) = a. Proof. revert a; csolve. Qed.
Lemma Cconj_RtoC x : Cconj (RtoC x) = RtoC x. Proof. csolve. Qed.
Lemma Cscale_RtoC r a : Cscale r a = (RtoC r * a)%C. Proof. csolve. Qed.
Lemma RtoC_plus x y : RtoC (x + y) = (RtoC x + RtoC y)%C. Proof. csolve. Qed.
Lemma RtoC_mult x y : RtoC (x * y) = (RtoC x * RtoC y)%C. Proof. csolve. Qed.
Lemma RtoC_opp x : RtoC (- x) = (- RtoC x)%C. Proof. csolve. Qed.
Lemma RtoC_minus x y : RtoC (x - y) = (RtoC x - RtoC y)%C. Proof. csolve. Qed.
Lemma Cmult_conj a : (a * Cconj a)%C = RtoC (Cnorm2 a).
Proof. unfold Cnorm2. csolve. Qed.
Lemma Re_plus a b : Re (a + b)%C = Re a + Re b. Proof. reflexivity. Qed.
Lemma Im_plus a b : Im (a + b)%C = Im a + Im b. Proof. reflexivity. Qed.
Lemma Re_minus a b : Re (a - b)%C = Re a - Re b. Proof. reflexivity. Qed.
Lemma Im_minus a b : Im (a - b)%C = Im a - Im b. Proof. reflexivity. Qed.
Lemma Re_RtoC x : Re (RtoC x) = x. Proof. reflexivity. Qed.
Lemma Re_RtoC_mult x a : Re (RtoC x * a)%C = x * Re a.
Proof. unfold Re, Cmult, RtoC; simpl; ring. Qed.
Lemma Im_RtoC_mult x a : Im (RtoC x * a)%C = x * Im a.
Proof. unfold Im, Cmult, RtoC; simpl; ring. Qed.
Lemma Re_conj a : Re (Cconj a) = Re a. Proof. reflexivity. Qed.
Lemma Im_conj a : Im (Cconj a) = - Im a. Proof. reflexivity. Qed.

Lemma Cexp_plus a b : Cexp (a + b)%C = (Cexp a * Cexp b)%C.
Proof.
  apply C_eq; unfold Re, Im, Cexp, Cplus, Cmult; simpl; rewrite exp_plus.
  - rewrite cos_plus; ring.
  - rewrite sin_plus; ring.
Qed.
Lemma Cexp_0 : Cexp C0 = C1.
Proof. apply C_eq; unfold Re, Im, Cexp, C0, C1; simpl; rewrite exp_0; [rewrite cos_0 | rewrite sin_0]; ring. Qed.
Lemma Cexp_conj a : Cexp (Cconj a) = Cconj (Cexp a).
Proof.
  apply C_eq; unfold Re, Im, Cexp, Cconj; simpl.
  - now rewrite cos_neg.
  - rewrite sin_neg. ring.
Qed.
Lemma Cnorm2_exp a : Cnorm2 (Cexp a) = exp (2 * Re a).
Proof.
  unfold Cnorm2, Cexp, Re; simpl.
  replace (2 * fst a) with (fst a + fst a) by ring. rewrite exp_plus.
  pose proof (sin2_cos2 (snd a)) as H. unfold Rsqr in H.
  replace (exp (fst a) * cos (snd a) * (exp (fst a) * cos (snd a)) +
           exp (fst a) * sin (snd a) * (exp (fst a) * sin (snd a)))
    with (exp (fst a) * exp (fst a) * (sin (snd a) * sin (snd a) + cos (snd a) * cos (snd a))) by ring.
  rewrite H. ring.
Qed.
Lemma Cexp_RtoC x : Cexp (RtoC x) = RtoC (exp x).
Proof. apply C_eq; unfold Re, Im, Cexp, RtoC; simpl; [rewrite cos_0 | rewrite sin_0]; ring. Qed.
Lemma Cexp_neg a : (Cexp a * Cexp (- a))%C = C1.
Proof. rewrite <- Cexp_plus. rewrite <- Cexp_0. f_equal. csolve. Qed.

(** The modulus. *)
Definition Cmod (a : C) : R := sqrt (Cnorm2 a).
Lemma Cnorm2_nonneg a : 0 <= Cnorm2 a.
Proof. unfold Cnorm2. nra. Qed.
Lemma Cmod_exp a : Cmod (Cexp a) = exp (Re a).
Proof.
  unfold Cmod. rewrite Cnorm2_exp. replace (2 * Re a) with (Re a + Re a) by ring. rewrite exp_plus.
  apply sqrt_square. left. apply exp_pos.
Qed.

(** * Finite sums *)
Definition Rsum {A} (f : A -> R) (l : list A) : R := fold_right (fun a s => f a + s) 0 l.
Definition Csum {A} (f : A -> C) (l : list A) : C := fold_right (fun a s => (f a + s)%C) C0 l.
Definition Rprod {A} (f : A -> R) (l : list A) : R := fold_right (fun a s => f a * s) 1 l.

Section RSum.
  Context {A : Type}.
  Implicit Types (f g : A -> R) (l : list A).
  Lemma Rsum_nil f : Rsum f [] = 0. Proof. reflexivity. Qed.
  Lemma Rsum_cons f a l : Rsum f (a :: l) = f a + Rsum f l. Proof. reflexivity. Qed.
  Lemma Rsum_app f l1 l2 : Rsum f (l1 ++ l2) = Rsum f l1 + Rsum f l2.
  Proof. induction l1; simpl app; [rewrite Rsum_nil; ring|]. rewrite !Rsum_cons, IHl1. ring. Qed.
  Lemma Rsum_ext f g l : (forall a, In a l -> f a = g a) -> Rsum f l = Rsum g l.
  Proof.
    induction l; intros H; auto. rewrite !Rsum_cons, H by now left.
    f_equal. apply IHl. intros; apply H; now right.
  Qed.
  Lemma Rsum_plus f g l : Rsum (fun a => f a + g a) l = Rsum f l + Rsum g l.
  Proof. induction l; [simpl; ring|]. rewrite !Rsum_cons, IHl. ring. Qed.
  Lemma Rsum_minus f g l : Rsum (fun a => f a - g a) l = Rsum f l - Rsum g l.
  Proof. induction l; [simpl; ring|]. rewrite !Rsum_cons, IHl. ring. Qed.
  Lemma Rsum_scal c f l : Rsum (fun a => c * f a) l = c * Rsum f l.
  Proof. induction l; [simpl; ring|]. rewrite !Rsum_cons, IHl. ring. Qed.
  Lemma Rsum_scal_r c f l : Rsum (fun a => f a * c) l = Rsum f l * c.
  Proof. induction l; [simpl; ring|]. rewrite !Rsum_cons, IHl. ring. Qed.
  Lemma Rsum_opp f l : Rsum (fun a => - f a) l = - Rsum f l.
  Proof. induction l; [simpl; ring|]. rewrite !Rsum_cons, IHl. ring. Qed.
  Lemma Rsum_zero l : Rsum (fun _ => 0) l = 0.
  Proof. induction l; [reflexivity|]. rewrite Rsum_cons, IHl. ring. Qed.
  Lemma Rsum_const c l : Rsum (fun _ => c) l = INR (length l) * c.
  Proof.
    induction l; [simpl; ring|]. rewrite Rsum_cons, IHl. cbn [length]. rewrite S_INR. ring.
  Qed.
  Lemma Rsum_perm f l1 l2 : Permutation l1 l2 -> Rsum f l1 = Rsum f l2.
  Proof.
    induction 1; auto; rewrite ?Rsum_cons.
    - now rewrite IHPermutation.
    - ring.
    - congruence.
  Qed.
  Lemma Rsum_nonneg f l : (forall a, In a l -> 0 <= f a) -> 0 <= Rsum f l.
  Proof.
    induction l; intros H; [simpl; lra|]. rewrite Rsum_cons.
    assert (0 <= f a) by (apply H; now left).
    assert (0 <= Rsum f l) by (apply IHl; intros; apply H; now right). lra.
  Qed.
  Lemma Rsum_le f g l : (forall a, In a l -> f a <= g a) -> Rsum f l <= Rsum g l.
  Proof.
    induction l; intros H; [simpl; lra|]. rewrite !Rsum_cons.
    assert (f a <= g a) by (apply H; now left).
    assert (Rsum f l <= Rsum g l) by (apply IHl; intros; apply H; now right). lra.
  Qed.
  Lemma Rsum_pos f l : l <> [] -> (forall a, In a l -> 0 < f a) -> 0 < Rsum f l.
  Proof.
    destruct l as [|a l]; [congruence|]. intros _ H. rewrite Rsum_cons.
    assert (0 < f a) by (apply H; now left).
    assert (0 <= Rsum f l) by (apply Rsum_nonneg; intros; left; apply H; now right). lra.
  Qed.
  Lemma Rsum_in_le f l a : (forall a, In a l -> 0 <= f a) -> In a l -> f a <= Rsum f l.
  Proof.
    induction l; intros H I; [destruct I|]. rewrite Rsum_cons.
    assert (0 <= Rsum f l) by (apply Rsum_nonneg; intros; apply H; now right).
    destruct I as [->|I]; [lra|].
    assert (0 <= f a0) by (apply H; now left).
    assert (f a <= Rsum f l) by (apply IHl; auto; intros; apply H; now right). lra.
  Qed.
End RSum.

Lemma Rsum_map {A B} (g : A -> B) (f : B -> R) l : Rsum f (map g l) = Rsum (fun a => f (g a)) l.
Proof. induction l; auto. simpl map. rewrite !Rsum_cons, IHl. reflexivity. Qed.
Lemma Rsum_flat_map {A B} (g : A -> list B) (f : B -> R) l :
  Rsum f (flat_map g l) = Rsum (fun a => Rsum f (g a)) l.
Proof. induction l; auto. simpl flat_map. rewrite Rsum_app, Rsum_cons, IHl. reflexivity. Qed.
Lemma Rsum_exchange {A B} (f : A -> B -> R) l1 l2 :
  Rsum (fun a => Rsum (fun b => f a b) l2) l1 = Rsum (fun b => Rsum (fun a => f a b) l1) l2.
Proof.
  induction l1.
  - simpl. symmetry. apply Rsum_zero.
  - rewrite Rsum_cons, IHl1, <- Rsum_plus. reflexivity.
Qed.

Section CSum.
  Context {A : Type}.
  Implicit Types (f g : A -> C) (l : list A).
  Lemma Csum_cons f a l : Csum f (a :: l) = (f a + Csum f l)%C. Proof. reflexivity. Qed.
  Lemma Csum_app f l1 l2 : Csum f (l1 ++ l2) = (Csum f l1 + Csum f l2)%C.
  Proof. induction l1; simpl app; [unfold Csum at 2; simpl; ring|]. rewrite !Csum_cons, IHl1. ring. Qed.
  Lemma Csum_ext f g l : (forall a, In a l -> f a = g a) -> Csum f l = Csum g l.
  Proof.
    induction l; intros H; auto. rewrite !Csum_cons, H by now left.
    f_equal. apply IHl. intros; apply H; now right.
  Qed.
  Lemma Csum_plus f g l : Csum (fun a => (f a + g a)%C) l = (Csum f l + Csum g l)%C.
  Proof. induction l; [simpl; ring|]. rewrite !Csum_cons, IHl. ring. Qed.
  Lemma Csum_minus f g l : Csum (fun a => (f a - g a)%C) l = (Csum f l - Csum g l)%C.
  Proof. induction l; [simpl; ring|]. rewrite !Csum_cons, IHl. ring. Qed.
  Lemma Csum_scal c f l : Csum (fun a => (c * f a)%C) l = (c * Csum f l)%C.
  Proof. induction l; [simpl; ring|]. rewrite !Csum_cons, IHl. ring. Qed.
  Lemma Csum_scal_r c f l : Csum (fun a => (f a * c)%C) l = (Csum f l * c)%C.
  Proof. induction l; [simpl; ring|]. rewrite !Csum_cons, IHl. ring. Qed.
  Lemma Csum_zero l : Csum (fun _ => C0) l = C0.
  Proof. induction l; [reflexivity|]. rewrite Csum_cons, IHl. ring. Qed.
  Lemma Csum_perm f l1 l2 : Permutation l1 l2 -> Csum f l1 = Csum f l2.
  Proof.
    induction 1; auto; rewrite ?Csum_cons.
    - now rewrite IHPermutation.
    - ring.
    - congruence.
  Qed.
  Lemma Csum_conj f l : Cconj (Csum f l) = Csum (fun a => Cconj (f a)) l.
  Proof. induction l; [simpl; csolve|]. rewrite !Csum_cons, <- IHl. apply Cconj_plus. Qed.
  Lemma Re_Csum f l : Re (Csum f l) = Rsum (fun a => Re (f a)) l.
  Proof. induction l; [reflexivity|]. rewrite Csum_cons, Rsum_cons, <- IHl. reflexivity. Qed.
  Lemma Im_Csum f l : Im (Csum f l) = Rsum (fun a => Im (f a)) l.
  Proof. induction l; [reflexivity|]. rewrite Csum_cons, Rsum_cons, <- IHl. reflexivity. Qed.
  Lemma Csum_RtoC (f : A -> R) l : Csum (fun a => RtoC (f a)) l = RtoC (Rsum f l).
  Proof. induction l; [reflexivity|]. rewrite Csum_cons, Rsum_cons, IHl, RtoC_plus. reflexivity. Qed.
End CSum.
Lemma Csum_map {A B} (g : A -> B) (f : B -> C) l : Csum f (map g l) = Csum (fun a => f (g a)) l.
Proof. induction l; auto. simpl map. rewrite !Csum_cons, IHl. reflexivity. Qed.
Lemma Csum_flat_map {A B} (g : A -> list B) (f : B -> C) l :
  Csum f (flat_map g l) = Csum (fun a => Csum f (g a)) l.
Proof. induction l; auto. simpl flat_map. rewrite Csum_app, Csum_cons, IHl. reflexivity. Qed.
Lemma Csum_exchange {A B} (f : A -> B -> C) l1 l2 :
  Csum (fun a => Csum (fun b => f a b) l2) l1 = Csum (fun b => Csum (fun a => f a b) l1) l2.
Proof.
  induction l1.
  - simpl. symmetry. apply Csum_zero.
  - rewrite Csum_cons, IHl1, <- Csum_plus. reflexivity.
Qed.

Lemma Rprod_cons {A} (f : A -> R) a l : Rprod f (a :: l) = f a * Rprod f l. Proof. reflexivity. Qed.
Lemma Rprod_ext {A} (f g : A -> R) l : (forall a, In a l -> f a = g a) -> Rprod f l = Rprod g l.
Proof.
  induction l; intros H; auto. rewrite !Rprod_cons, H by now left.
  f_equal. apply IHl. intros; apply H; now right.
Qed.
Lemma Rprod_perm {A} (f : A -> R) l1 l2 : Permutation l1 l2 -> Rprod f l1 = Rprod f l2.
Proof.
  induction 1; auto; rewrite ?Rprod_cons.
  - now rewrite IHPermutation.
  - ring.
  - congruence.
Qed.
Lemma exp_Rsum {A} (f : A -> R) l : exp (Rsum f l) = Rprod (fun a => exp (f a)) l.
Proof. induction l; [apply exp_0|]. rewrite Rsum_cons, Rprod_cons, exp_plus, IHl. reflexivity. Qed.

(** * Inverse and quotient *)
Definition Cinv (a : C) : C := (fst a / Cnorm2 a, - snd a / Cnorm2 a).
Definition Cdiv (a b : C) : C := Cmult a (Cinv b).
Infix "/" := Cdiv : C_scope.
Lemma Cnorm2_pos a : a <> C0 -> 0 < Cnorm2 a.
Proof.
  intros H. pose proof (Cnorm2_nonneg a) as P. destruct (Req_dec (Cnorm2 a) 0) as [E|E]; [|lra].
  exfalso. apply H. unfold Cnorm2 in E. destruct a as [x y]. cbn [fst snd] in E. unfold C0. f_equal; nra.
Qed.
Lemma Cmult_inv_r a : a <> C0 -> (a * Cinv a)%C = C1.
Proof.
  intros H. pose proof (Cnorm2_pos a H). apply C_eq; unfold Re, Im, Cmult, Cinv, C1; cbn [fst snd].
  - replace (fst a * (fst a / Cnorm2 a) - snd a * (- snd a / Cnorm2 a)) with (Cnorm2 a / Cnorm2 a); [field; lra|].
    unfold Cnorm2. field. unfold Cnorm2 in H0. lra.
  - field. lra.
Qed.
Lemma Cnorm2_exp_pos a : 0 < Cnorm2 (Cexp a).
Proof. rewrite Cnorm2_exp. apply exp_pos. Qed.
Lemma Cexp_nonzero a : Cexp a <> C0.
Proof. intros E. pose proof (Cnorm2_exp_pos a) as H. rewrite E in H. unfold Cnorm2, C0 in H. cbn [fst snd] in H. lra. Qed.
Lemma Cinv_unique a b : (a * b)%C = C1 -> Cinv a = b.
Proof.
  intros H. assert (a <> C0).
  { intros ->. apply (f_equal Re) in H. unfold Re, Cmult, C0, C1 in H. cbn [fst snd] in H. lra. }
  transitivity (Cinv a * (a * b))%C; [rewrite H; ring|]. replace (Cinv a * (a * b))%C with (a * Cinv a * b)%C by ring.
  rewrite Cmult_inv_r by assumption. ring.
Qed.
Lemma Cexp_minus a b : Cexp (a - b)%C = (Cexp a / Cexp b)%C.
Proof.
  unfold Cdiv. replace (a - b)%C with (a + - b)%C by ring. rewrite Cexp_plus. f_equal. symmetry. apply Cinv_unique, Cexp_neg.
Qed.
Lemma Cdiv_RtoC a x : x <> 0 -> (a / RtoC x)%C = Cscale (/ x) a.
Proof.
  intros H. unfold Cdiv. rewrite Cscale_RtoC, (Cinv_unique (RtoC x) (RtoC (/ x))); [ring|].
  rewrite <- RtoC_mult. unfold C1. rewrite Rinv_r by exact H. reflexivity.
Qed.
