(** Vectors of real numbers as lists; arithmetic used by the models of optimizers. Nothing here models a
    particular FlowKet function. *)
From Coq Require Import List Reals Lra Lia Arith.
From Verif Require Import Base Cplx.
Import ListNotations.
Local Open Scope R_scope.

Definition vzero (d : nat) : list R := repeat 0 d.
Definition vadd (a b : list R) : list R := map2 Rplus a b.
Definition vscale (c : R) (a : list R) : list R := map (Rmult c) a.
Definition vsum (d : nat) (l : list (list R)) : list R := fold_right vadd (vzero d) l.

Lemma vadd_length a b : length a = length b -> length (vadd a b) = length a.
Proof. intros H. unfold vadd. rewrite map2_length. lia. Qed.
Lemma vzero_length d : length (vzero d) = d.
Proof. apply repeat_length. Qed.
Lemma vscale_length c a : length (vscale c a) = length a.
Proof. apply map_length. Qed.

Lemma nth_vzero d i : nth i (vzero d) 0 = 0.
Proof. unfold vzero. revert i. induction d; intros [|i]; cbn [repeat nth]; auto. Qed.
Lemma nth_vadd a : forall b i, length a = length b -> nth i (vadd a b) 0 = nth i a 0 + nth i b 0.
Proof.
  induction a as [|x a IH]; intros [|y b] i H; try discriminate; unfold vadd in *; cbn [map2].
  - destruct i; cbn [nth]; lra.
  - destruct i; cbn [nth]; [lra|]. apply IH. now injection H.
Qed.
Lemma nth_vscale c a i : nth i (vscale c a) 0 = c * nth i a 0.
Proof. unfold vscale. revert i. induction a; intros [|i]; cbn [map nth]; auto; lra. Qed.

Lemma vsum_length d l : (forall v, In v l -> length v = d) -> length (vsum d l) = d.
Proof.
  induction l as [|v l IH]; intros H; cbn [vsum fold_right]; [apply vzero_length|].
  fold (vsum d l). rewrite vadd_length.
  - apply H. now left.
  - rewrite IH by (intros; apply H; now right). apply H. now left.
Qed.
Lemma nth_vsum d l i : (forall v, In v l -> length v = d) -> nth i (vsum d l) 0 = Rsum (fun v => nth i v 0) l.
Proof.
  induction l as [|v l IH]; intros H; cbn [vsum fold_right]; [apply nth_vzero|].
  fold (vsum d l). rewrite Rsum_cons, nth_vadd, IH; auto.
  - intros; apply H; now right.
  - rewrite vsum_length by (intros; apply H; now right). apply H. now left.
Qed.

Lemma vec_ext (a b : list R) : length a = length b -> (forall i, nth i a 0 = nth i b 0) -> a = b.
Proof. intros L H. apply (list_ext_nth 0); auto. Qed.
