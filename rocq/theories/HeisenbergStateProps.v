(** C23: which states Heisenberg.use_state accepts, against the states drawn and the states connected. *)
From Coq Require Import List ZArith QArith Lia Arith Bool Permutation.
From Verif Require Import Base LatticeSpec HeisenbergModel HeisenbergProofs HeisenbergProps HeisenbergStateModel.
Import ListNotations.
Local Open Scope Z_scope.

Lemma sum_up_down : forall a b : nat, sumZ (repeat 1 a ++ repeat (-1) b) = Z.of_nat a - Z.of_nat b.
Proof.
  assert (D : forall b, sumZ (repeat (-1) b) = - Z.of_nat b).
  { induction b as [|b IH]; [reflexivity|]. cbn [repeat]. change (sumZ (-1 :: repeat (-1) b)) with (-1 + sumZ (repeat (-1) b)). lia. }
  induction a as [|a IH]; intros b.
  - cbn [repeat app]. rewrite D. lia.
  - cbn [repeat app]. change (sumZ (1 :: repeat 1 a ++ repeat (-1) b)) with (1 + sumZ (repeat 1 a ++ repeat (-1) b)). rewrite IH. lia.
Qed.
Lemma spins_parity : forall n s, spins n s -> exists up : nat, (up <= n)%nat /\ sumZ s = 2 * Z.of_nat up - Z.of_nat n.
Proof.
  intros n s [L S]. revert n L. induction S as [|x s Hx _ IH]; intros n L.
  - exists 0%nat. cbn in *. subst n. split; [lia|reflexivity].
  - destruct n as [|n]; [discriminate|]. destruct (IH n (eq_add_S _ _ L)) as (u & U & E). change (sumZ (x :: s)) with (x + sumZ s).
    destruct Hx as [-> | ->]; [exists (S u)|exists u]; split; lia.
Qed.

(** The operator never leads out of the accepted states: a used connection is accepted exactly when the sample is, whatever total_sz is and whatever calls
    came before. *)
Theorem C23_use_state_conserved : forall (shape : list nat) (rot pbc : bool) (batches : list (list (list Z))) (sample : list (list Z)) (total_sz : option Q),
  chain_or_grid shape ->
  exists H H1 ref,
    run_calls (heisenberg_init shape rot pbc) batches = Ok H /\ heisenberg_find_conn H sample = Ok (H1, ref) /\
    forall i s r, nth_error sample i = Some s -> nth_error (read_result H1 ref) i = Some r -> spins (sites_of shape) s ->
      forall k, (k < length (all_conn r))%nat -> nth k (all_use r) false = true -> use_state total_sz (nth k (all_conn r) []) = use_state total_sz s.
Proof.
  intros shape rot pbc batches sample q CG. destruct (C21_matrix_row shape rot pbc batches sample CG) as (H & H1 & ref & R & F & _ & A).
  exists H, H1, ref. split; [exact R|]. split; [exact F|]. intros i s r Hs Hr Sp k K U.
  destruct (A i s r Hs Hr Sp) as (_ & Z0 & _ & _ & B). destruct k as [|k]; [now rewrite Z0|].
  specialize (B (S k) (conj (Nat.lt_0_succ k) K)). rewrite U in B. destruct B as (_ & E & _). unfold use_state. now rewrite E.
Qed.
Print Assumptions C23_use_state_conserved.
Example C23_use_state_conserved_ex : chain_or_grid [2; 3]%nat /\ spins (sites_of [2; 3]%nat) [1; -1; 1; 1; -1; -1] /\
  use_state (Some 0%Q) [1; -1; 1; 1; -1; -1] = true /\ use_state (Some 0%Q) [1; -1; 1; 1; 1; -1] = false.
Proof. destruct C21_matrix_row_ex as [A B]. split; [exact A|]. split; [exact B|]. split; reflexivity. Qed.

(** Without a request every state is accepted. With one, the accepted spin states are those with that sum; there are such states exactly when the request is
    one of the sums -n, -n + 2, ..., n. Every state that is drawn is accepted. *)
Theorem C23_use_state : forall (n : nat) (total_sz : Q),
  (forall s, use_state None s = true) /\
  (forall s, use_state (Some total_sz) s = true <-> (inject_Z (sumZ s) == total_sz)%Q) /\
  ((exists s, spins n s /\ use_state (Some total_sz) s = true) <-> exists up : nat, (up <= n)%nat /\ (inject_Z (2 * Z.of_nat up - Z.of_nat n) == total_sz)%Q) /\
  (forall shuffles states s, (forall f, In f shuffles -> forall l, Permutation (f l) l) -> random_states n total_sz shuffles = Ok states -> In s states ->
     spins n s /\ use_state (Some total_sz) s = true).
Proof.
  intros n q. assert (I : forall s, use_state (Some q) s = true <-> (inject_Z (sumZ s) == q)%Q) by (intros s; apply Qeq_bool_iff).
  split; [reflexivity|]. split; [exact I|]. split.
  - split.
    + intros (s & S & U). destruct (spins_parity n s S) as (up & L & E). exists up. split; [exact L|]. rewrite <- E. now apply I.
    + intros (up & L & E). exists (repeat 1 up ++ repeat (-1) (n - up)). split.
      * split; [rewrite app_length, !repeat_length; lia|]. apply Forall_app. split; apply Forall_forall; intros x X; apply repeat_spec in X; subst x; [left|right]; reflexivity.
      * apply I. rewrite sum_up_down. replace (Z.of_nat up - Z.of_nat (n - up)) with (2 * Z.of_nat up - Z.of_nat n) by lia. exact E.
  - intros sh states s P R IS. destruct sh as [|f sh]; [injection R as <-; destruct IS|]. assert (NE : f :: sh <> []) by discriminate.
    destruct (Qeq_dec q 0) as [E0|E0]; [destruct (Nat.even n) eqn:EV|].
    + destruct (C23_zero_magnetisation n (f :: sh) q E0 EV P) as (st & R' & _ & A). rewrite R in R'. injection R' as <-. destruct (A s IS) as [S Z]. split; [exact S|].
      apply I. rewrite Z. symmetry. exact E0.
    + destruct (C23_other_requests_raise n (f :: sh) q NE P (or_intror EV)) as (e & X). rewrite R in X. discriminate.
    + destruct (C23_other_requests_raise n (f :: sh) q NE P (or_introl E0)) as (e & X). rewrite R in X. discriminate.
Qed.
Print Assumptions C23_use_state.
(** Four sites and total_sz = 2: three spins up and one down is accepted, but such a state is never drawn. *)
Example C23_use_state_ex : spins 4 [1; 1; 1; -1] /\ use_state (Some 2%Q) [1; 1; 1; -1] = true /\ random_states 4 2 [fun l => l] = Err AssertionError.
Proof. repeat split. repeat constructor; (now left) || (now right). Qed.
