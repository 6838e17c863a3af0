(** Lemmas: small lattices on which the rotation changes the energies. *)
From Coq Require Import List ZArith Lia Bool Arith Reals Lra.
From Verif Require Import Base Cplx LatticeSpec HeisenbergModel HeisenbergProofs AutoregressiveSpec ObservableModel ObservableSpec ObservableProofs ExactModel ExactSpec ExactProofs
  ExactOperatorProofs RotationSpec RotationProofs.
Import ListNotations.
Local Open Scope R_scope.

(** The matrix as a list of its non zero entries. *)
Definition entries (n : nat) (E : list Z -> list Z -> Z) : list (list Z * list Z * Z) :=
  filter (fun x => negb (snd x =? 0)%Z) (flat_map (fun s => map (fun t => (s, t, E s t)) (spin_configs n)) (spin_configs n)).
Definition entry_term (psi : list Z -> C) (x : list Z * list Z * Z) : R :=
  IZR (snd x) * (Re (psi (fst (fst x))) * Re (psi (snd (fst x))) + Im (psi (fst (fst x))) * Im (psi (snd (fst x)))).

Lemma entries_braket n E psi : Re (braket n (fun s t => RtoC (IZR (E s t))) psi) = Rsum (entry_term psi) (entries n E).
Proof.
  unfold entries. assert (F : forall l : list (list Z * list Z * Z), Rsum (entry_term psi) (filter (fun x => negb (snd x =? 0)%Z) l) = Rsum (entry_term psi) l).
  { induction l as [|[[s t] z] l IH]; [reflexivity|]. cbn [filter snd]. destruct (Z.eqb_spec z 0) as [->|N]; cbn [negb]; rewrite ?Rsum_cons, IH; [|reflexivity].
    unfold entry_term at 2. cbn [fst snd]. lra. }
  rewrite F, Rsum_flat_map. unfold braket, apply_matrix. rewrite Re_Csum. apply Rsum_ext. intros s _. rewrite Rsum_map, <- Csum_scal, Re_Csum. apply Rsum_ext. intros t _.
  unfold entry_term. cbn [fst snd]. destruct (psi s) as [a b], (psi t) as [c d]. unfold Cconj, RtoC, Cmult, Re, Im. cbn [fst snd]. ring.
Qed.

Lemma expectation_ge n H lp c : c * norm2 n lp <= Re (braket n H (fun s => Cexp (lp s))) -> c <= Re (expectation n H lp).
Proof.
  intros X. unfold expectation, Cscale, Re. cbn [fst]. pose proof (norm2_pos n lp) as P. apply (Rmult_le_reg_l (norm2 n lp)); [exact P|].
  rewrite <- Rmult_assoc, Rinv_r, Rmult_1_l by lra. unfold Re in X. lra.
Qed.
Lemma expectation_lt n H lp c : Re (braket n H (fun s => Cexp (lp s))) < c * norm2 n lp -> Re (expectation n H lp) < c.
Proof.
  intros X. unfold expectation, Cscale, Re. cbn [fst]. pose proof (norm2_pos n lp) as P. apply (Rmult_lt_reg_l (norm2 n lp)); [exact P|].
  rewrite <- Rmult_assoc, Rinv_r, Rmult_1_l by lra. unfold Re in X. lra.
Qed.

Lemma ring_three_bound lp : -3 <= Re (expectation 3 (heisenberg_matrix false true [3%nat]) lp).
Proof.
  apply expectation_ge. unfold heisenberg_matrix. rewrite (entries_braket 3 (heisenberg_element 2 (shape_bonds [3%nat] true))).
  unfold norm2, born. set (psi := fun s => Cexp (lp s)). change (fun s => Cnorm2 (Cexp (lp s))) with (fun s => Cnorm2 (psi s)). clearbody psi.
  match goal with |- context [entries ?n ?E] => let e := eval vm_compute in (entries n E) in change (entries n E) with e end.
  match goal with |- context [spin_configs 3] => let e := eval vm_compute in (spin_configs 3) in change (spin_configs 3) with e end.
  rewrite !Rsum_cons, !Rsum_nil. unfold entry_term. cbn [fst snd].
  destruct (psi [1; 1; 1]%Z) as [a a'], (psi [-1; 1; 1]%Z) as [b b'], (psi [1; -1; 1]%Z) as [c c'], (psi [1; 1; -1]%Z) as [d d'].
  destruct (psi [-1; -1; -1]%Z) as [e e'], (psi [1; -1; -1]%Z) as [f f'], (psi [-1; 1; -1]%Z) as [g g'], (psi [-1; -1; 1]%Z) as [h h'].
  unfold Cnorm2, Re, Im. cbn [fst snd].
  pose proof (pow2_ge_0 a). pose proof (pow2_ge_0 a'). pose proof (pow2_ge_0 e). pose proof (pow2_ge_0 e').
  pose proof (pow2_ge_0 (b + c + d)). pose proof (pow2_ge_0 (b' + c' + d')). pose proof (pow2_ge_0 (f + g + h)). pose proof (pow2_ge_0 (f' + g' + h')).
  lra.
Qed.

Lemma ring_three_rotated : Re (expectation 3 (heisenberg_matrix true true [3%nat]) mixed_first) < -3.
Proof.
  apply expectation_lt. unfold heisenberg_matrix. rewrite (entries_braket 3 (heisenberg_element (-2) (shape_bonds [3%nat] true))).
  unfold norm2, born.
  match goal with |- context [entries ?n ?E] => let e := eval vm_compute in (entries n E) in change (entries n E) with e end.
  match goal with |- context [spin_configs 3] => let e := eval vm_compute in (spin_configs 3) in change (spin_configs 3) with e end.
  rewrite !Rsum_cons, !Rsum_nil. unfold entry_term. cbn [fst snd].
  repeat match goal with |- context [mixed_first ?s] => first [change (mixed_first s) with C0 | change (mixed_first s) with (RtoC (-1))] end.
  rewrite Cexp_0, Cexp_RtoC. unfold C1, RtoC, Cnorm2, Re, Im. cbn [fst snd].
  assert (P : 0 < exp (-1) < 1). { split; [apply exp_pos|]. rewrite <- exp_0. apply exp_increasing. lra. }
  nra.
Qed.

Lemma singlet_two lp : Re (expectation 2 (heisenberg_matrix false false [2%nat]) singlet_like) < Re (expectation 2 (heisenberg_matrix false false [2%nat]) (modulus lp)).
Proof.
  apply (Rlt_le_trans _ (-1)).
  - apply expectation_lt. unfold heisenberg_matrix. rewrite (entries_braket 2 (heisenberg_element 2 (shape_bonds [2%nat] false))). unfold norm2, born.
    match goal with |- context [entries ?n ?E] => let e := eval vm_compute in (entries n E) in change (entries n E) with e end.
    match goal with |- context [spin_configs 2] => let e := eval vm_compute in (spin_configs 2) in change (spin_configs 2) with e end.
    rewrite !Rsum_cons, !Rsum_nil. unfold entry_term. cbn [fst snd].
    repeat match goal with |- context [singlet_like ?s] => first [change (singlet_like s) with C0 | change (singlet_like s) with (0, PI) | change (singlet_like s) with (RtoC (-1))] end.
    rewrite Cexp_0, Cexp_RtoC. unfold Cexp. cbn [fst snd]. rewrite exp_0, cos_PI, sin_PI. unfold C1, RtoC, Cnorm2, Re, Im. cbn [fst snd].
    assert (P : 0 < exp (-1) < 1). { split; [apply exp_pos|]. rewrite <- exp_0. apply exp_increasing. lra. }
    nra.
  - apply expectation_ge. unfold heisenberg_matrix. rewrite (entries_braket 2 (heisenberg_element 2 (shape_bonds [2%nat] false))). unfold norm2, born, modulus.
    match goal with |- context [entries ?n ?E] => let e := eval vm_compute in (entries n E) in change (entries n E) with e end.
    match goal with |- context [spin_configs 2] => let e := eval vm_compute in (spin_configs 2) in change (spin_configs 2) with e end.
    rewrite !Rsum_cons, !Rsum_nil. unfold entry_term. cbn [fst snd]. rewrite !Cexp_RtoC. unfold RtoC, Cnorm2, Re, Im. cbn [fst snd].
    pose proof (exp_pos (fst (lp [1; -1]%Z))) as P1. pose proof (exp_pos (fst (lp [-1; 1]%Z))) as P2.
    set (x := exp (fst (lp [1; -1]%Z))) in *. set (y := exp (fst (lp [-1; 1]%Z))) in *. clearbody x y.
    set (u := exp (fst (lp [1; 1]%Z))). set (v := exp (fst (lp [-1; -1]%Z))). clearbody u v.
    pose proof (pow2_ge_0 u). pose proof (pow2_ge_0 v). pose proof (Rmult_lt_0_compat _ _ P1 P2). nra.
Qed.
