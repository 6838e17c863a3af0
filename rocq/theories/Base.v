(** Shared vocabulary of the model: python exceptions as values and a few list helpers.
    Nothing in this file models a particular FlowKet function. *)
From Coq Require Import List ZArith Lia Arith Bool Permutation.
Import ListNotations.

(** Exceptions that the modelled code can raise. [ShapeError] stands for the ValueError raised by numpy
    when a value does not fit the slice it is assigned to. *)
Inductive exn :=
| ValueError | TypeError | AttributeError | KeyError | IndexError | AssertionError
| ZeroDivisionError | OSError | ShapeError | EOFError | GenericException | NetworkXUnfeasible | UnsupportedLayer | NotImplementedError.

Inductive res (A : Type) :=
| Ok (a : A)
| Err (e : exn).
Arguments Ok {A} a.
Arguments Err {A} e.

Definition bind {A B} (r : res A) (k : A -> res B) : res B :=
  match r with Ok a => k a | Err e => Err e end.

Definition is_ok {A} (r : res A) : bool := match r with Ok _ => true | Err _ => false end.

Notation "'do' x <- r ; k" := (bind r (fun x => k)) (at level 200, x name, r at level 100, k at level 200).

(** [range n] is python's [range(n)]. *)
Definition range (n : nat) : list nat := seq 0 n.

(** Replace position [i] of a list ([l[i] = v]); out of range leaves the list unchanged (the callers
    that can go out of range test for it). *)
Fixpoint upd {A} (l : list A) (i : nat) (v : A) : list A :=
  match l, i with
  | [], _ => []
  | _ :: t, O => v :: t
  | h :: t, S i' => h :: upd t i' v
  end.

(** Pointwise combination of two lists, numpy element-wise operations on equal shapes. *)
Fixpoint map2 {A B C} (f : A -> B -> C) (l1 : list A) (l2 : list B) : list C :=
  match l1, l2 with
  | a :: t1, b :: t2 => f a b :: map2 f t1 t2
  | _, _ => []
  end.

(** numpy/python slice [l[a:b]] for 0 <= a, with clamping at the end. *)
Definition slice {A} (l : list A) (a b : nat) : list A := firstn (b - a) (skipn a l).

Definition sumZ (l : list Z) : Z := fold_right Z.add 0%Z l.

Lemma upd_length {A} (l : list A) i v : length (upd l i v) = length l.
Proof. revert i; induction l as [|h t IH]; intros [|i]; simpl; auto. Qed.

Lemma nth_error_upd_same {A} (l : list A) i v : i < length l -> nth_error (upd l i v) i = Some v.
Proof.
  revert i; induction l as [|h t IH]; intros [|i] H; simpl in *; try lia; auto.
  apply IH; lia.
Qed.

Lemma nth_error_upd_other {A} (l : list A) i j v : i <> j -> nth_error (upd l i v) j = nth_error l j.
Proof.
  revert i j; induction l as [|h t IH]; intros [|i] [|j] H; simpl; auto; try lia.
Qed.

Lemma nth_upd_same {A} (l : list A) i v d : i < length l -> nth i (upd l i v) d = v.
Proof. intros H. apply nth_error_nth. now apply nth_error_upd_same. Qed.

Lemma nth_upd_other {A} (l : list A) i j v d : i <> j -> nth j (upd l i v) d = nth j l d.
Proof.
  revert i j; induction l as [|h t IH]; intros [|i] [|j] H; simpl; auto; try lia.
Qed.

Lemma upd_oob {A} (l : list A) i v : length l <= i -> upd l i v = l.
Proof.
  revert i; induction l as [|h t IH]; intros [|i] H; simpl in *; auto; try lia.
  f_equal; apply IH; lia.
Qed.

Lemma map2_length {A B C} (f : A -> B -> C) l1 l2 :
  length (map2 f l1 l2) = Nat.min (length l1) (length l2).
Proof. revert l2; induction l1 as [|a t IH]; intros [|b t2]; simpl; auto. Qed.

Lemma map2_map_l {A A' B C} (f : A' -> B -> C) (g : A -> A') l1 l2 :
  map2 f (map g l1) l2 = map2 (fun a b => f (g a) b) l1 l2.
Proof. revert l2; induction l1 as [|a t IH]; intros [|b t2]; simpl; auto. now rewrite IH. Qed.

Lemma map2_diag {A C} (f : A -> A -> C) l : map2 f l l = map (fun a => f a a) l.
Proof. induction l; simpl; auto. now rewrite IHl. Qed.

Lemma map2_ext_in {A B C} (f g : A -> B -> C) l1 l2 :
  (forall a b, In a l1 -> In b l2 -> f a b = g a b) -> map2 f l1 l2 = map2 g l1 l2.
Proof.
  revert l2; induction l1 as [|a t IH]; intros [|b t2] H; simpl; auto.
  f_equal; [apply H; now left|]. apply IH; intros; apply H; now right.
Qed.

Lemma nth_error_map2 {A B C} (f : A -> B -> C) l1 l2 i :
  nth_error (map2 f l1 l2) i =
  match nth_error l1 i, nth_error l2 i with Some a, Some b => Some (f a b) | _, _ => None end.
Proof.
  revert l2 i; induction l1 as [|a t IH]; intros [|b t2] [|i]; simpl; auto.
  now destruct (nth_error t i).
Qed.

Lemma list_ext {A} (l1 l2 : list A) :
  (forall i, nth_error l1 i = nth_error l2 i) -> l1 = l2.
Proof.
  revert l2; induction l1 as [|a t IH]; intros [|b t2] H; auto.
  - specialize (H 0); discriminate.
  - specialize (H 0); discriminate.
  - f_equal. { specialize (H 0). simpl in H. congruence. }
    apply IH. intros i. exact (H (S i)).
Qed.

Lemma list_ext_nth {A} (d : A) (l1 l2 : list A) :
  length l1 = length l2 -> (forall i, i < length l1 -> nth i l1 d = nth i l2 d) -> l1 = l2.
Proof.
  revert l2; induction l1 as [|a t IH]; intros [|b t2] HL H; simpl in *; auto; try lia.
  f_equal. { apply (H 0); lia. } apply IH; [lia|]. intros i Hi. apply (H (S i)); lia.
Qed.

Lemma nth_error_range n i : nth_error (range n) i = if i <? n then Some i else None.
Proof.
  unfold range. destruct (Nat.ltb_spec i n).
  - rewrite (nth_error_nth' _ 0) by (rewrite seq_length; lia). rewrite seq_nth; auto.
  - apply nth_error_None. rewrite seq_length; lia.
Qed.

Lemma in_range n i : In i (range n) <-> i < n.
Proof. unfold range. rewrite in_seq. lia. Qed.

Lemma range_length n : length (range n) = n.
Proof. apply seq_length. Qed.

Lemma range_NoDup n : NoDup (range n).
Proof. apply seq_NoDup. Qed.

Lemma nth_map_range {A} (f : nat -> A) n i d : i < n -> nth i (map f (range n)) d = f i.
Proof.
  intros H. rewrite (nth_indep _ d (f 0)) by (rewrite map_length, range_length; auto).
  rewrite map_nth. unfold range. now rewrite seq_nth.
Qed.

Lemma map_nth_range {A} (l : list A) d : map (fun i => nth i l d) (range (length l)) = l.
Proof.
  apply (list_ext_nth d).
  - now rewrite map_length, range_length.
  - intros i Hi. rewrite map_length, range_length in Hi. now rewrite nth_map_range.
Qed.

Lemma slice_length {A} (l : list A) a b : length (slice l a b) = Nat.min b (length l) - a.
Proof. unfold slice. rewrite firstn_length, skipn_length. lia. Qed.

Lemma firstn_upd_last {A} (r : list A) k v : k < length r -> firstn (S k) (upd r k v) = firstn k r ++ [v].
Proof.
  revert k; induction r as [|x r IH]; intros [|k] H; simpl in *; try lia; auto.
  f_equal. apply (IH k). lia.
Qed.

Lemma seq_map_add i m : forall s, map (fun j => i + j) (seq s m) = seq (i + s) m.
Proof. induction m; intros s; simpl; auto. rewrite IHm. now rewrite Nat.add_succ_r. Qed.

#[global] Arguments Z.mul : simpl never.
#[global] Arguments Z.add : simpl never.
#[global] Arguments Z.sub : simpl never.
#[global] Arguments Z.opp : simpl never.
#[global] Arguments Z.pow : simpl never.
#[global] Arguments Z.div : simpl never.
#[global] Arguments Z.modulo : simpl never.
#[global] Arguments Z.of_nat : simpl never.
#[global] Arguments Nat.pow : simpl never.
#[global] Arguments Nat.div : simpl never.
#[global] Arguments Nat.modulo : simpl never.
