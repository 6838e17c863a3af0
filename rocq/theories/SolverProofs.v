(** Proofs about the solvers of stochastic reconfiguration. *)
From Coq Require Import String List ZArith Reals Bool Arith Lia Lra.
From Verif Require Import Base Cplx IsingModel ReconfigurationModel ReconfigurationSpec ReconfigurationVecProofs ReconfigurationCgProofs ReconfigurationProofs SolverModel SolverSpec.
Import ListNotations.
Local Open Scope nat_scope.

(** * Cholesky factors *)

Lemma Csum_S (f : nat -> C) n : Csum f (seq 0 (S n)) = (f 0 + Csum (fun i => f (S i)) (seq 0 n))%C.
Proof. cbn [seq]. rewrite Csum_cons, <- seq_shift, Csum_map. reflexivity. Qed.
Lemma Cdiv_mult a b : b <> C0 -> (a / b * b)%C = a.
Proof. intros H. unfold Cdiv. replace (a * Cinv b * b)%C with (a * (b * Cinv b))%C by ring. rewrite Cmult_inv_r by exact H. ring. Qed.
Lemma RtoC_nz r : r <> 0%R -> RtoC r <> C0.
Proof. intros H E. injection E as E. auto. Qed.
Lemma real_of_conj z : z = Cconj z -> z = RtoC (Re z).
Proof. destruct z as [a b]. unfold Cconj, RtoC, Re. cbn [fst snd]. intros E. injection E as E. f_equal. lra. Qed.

Definition root (A : nat -> nat -> C) : C := RtoC (sqrt (Re (A 0 0))).
Definition first_column (A : nat -> nat -> C) (i : nat) : C := (A (S i) 0 / root A)%C.
Definition schur (A : nat -> nat -> C) (i j : nat) : C := (A (S i) (S j) - first_column A i * Cconj (first_column A j))%C.

Section Block.
  Context (n : nat) (A : nat -> nat -> C) (H : hermitian (S n) A) (P : (0 < Re (A O O))%R).
  Lemma root_nz : root A <> C0.
  Proof. apply RtoC_nz. pose proof (sqrt_lt_R0 _ P). lra. Qed.
  Lemma root_conj : Cconj (root A) = root A.
  Proof. apply Cconj_RtoC. Qed.
  Lemma root_sq : (root A * root A)%C = A 0 0.
  Proof.
    unfold root. rewrite <- RtoC_mult, sqrt_sqrt by lra. symmetry. apply real_of_conj. apply H; lia.
  Qed.
  Lemma column_A i : i < n -> A (S i) 0 = (first_column A i * root A)%C.
  Proof. intros I. unfold first_column. symmetry. apply Cdiv_mult, root_nz. Qed.
  Lemma row_A i : i < n -> A 0 (S i) = (root A * Cconj (first_column A i))%C.
  Proof.
    intros I. rewrite (H (S i) 0) by lia. rewrite column_A by exact I. rewrite Cconj_mult, root_conj. ring.
  Qed.
  Lemma schur_A i j : A (S i) (S j) = (schur A i j + first_column A i * Cconj (first_column A j))%C.
  Proof. unfold schur. ring. Qed.
  Lemma schur_hermitian : hermitian n (schur A).
  Proof.
    intros i j I J. unfold schur. rewrite (H (S i) (S j)) by lia. rewrite Cconj_minus, Cconj_mult, Cconj_conj. ring.
  Qed.
  Lemma form_block x : form (S n) A x =
    (Cconj (root A * x 0 + Csum (fun j => Cconj (first_column A j) * x (S j)) (seq 0 n)) * (root A * x 0 + Csum (fun j => Cconj (first_column A j) * x (S j)) (seq 0 n)) +
     form n (schur A) (fun i => x (S i)))%C.
  Proof.
    set (s := Csum (fun j => (Cconj (first_column A j) * x (S j))%C) (seq 0 n)).
    assert (CS : Cconj s = Csum (fun j => (first_column A j * Cconj (x (S j)))%C) (seq 0 n)).
    { unfold s. rewrite Csum_conj. apply Csum_ext. intros j _. rewrite Cconj_mult, Cconj_conj. reflexivity. }
    unfold form. rewrite Csum_S, Csum_S.
    assert (E1 : Csum (fun j => (Cconj (x 0) * A 0 (S j) * x (S j))%C) (seq 0 n) = (Cconj (x 0) * root A * s)%C).
    { unfold s. rewrite <- Csum_scal. apply Csum_ext. intros j J. apply in_seq in J. rewrite row_A by lia. ring. }
    rewrite E1.
    assert (E2 : Csum (fun i => Csum (fun j => (Cconj (x (S i)) * A (S i) j * x j)%C) (seq 0 (S n))) (seq 0 n) =
      (Cconj s * root A * x 0 + Cconj s * s + Csum (fun i => Csum (fun j => (Cconj (x (S i)) * schur A i j * x (S j))%C) (seq 0 n)) (seq 0 n))%C).
    { rewrite CS at 1 2. rewrite <- !Csum_scal_r, <- !Csum_plus. apply Csum_ext. intros i I. apply in_seq in I. rewrite Csum_S, column_A by lia.
      assert (E3 : Csum (fun j => (Cconj (x (S i)) * A (S i) (S j) * x (S j))%C) (seq 0 n) =
        (first_column A i * Cconj (x (S i)) * s + Csum (fun j => (Cconj (x (S i)) * schur A i j * x (S j))%C) (seq 0 n))%C).
      { unfold s. rewrite <- Csum_scal, <- Csum_plus. apply Csum_ext. intros j J. rewrite schur_A. ring. }
      rewrite E3. ring. }
    rewrite E2, Cconj_plus, Cconj_mult, root_conj, <- root_sq. ring.
  Qed.
  Lemma schur_definite : definite (S n) A <-> definite n (schur A).
  Proof.
    split; intros D x [i [I X]].
    - set (s := Csum (fun j => (Cconj (first_column A j) * x j)%C) (seq 0 n)).
      specialize (D (fun k => match k with O => (- s / root A)%C | S k => x k end)). assert (E : exists i, i < S n /\ (match i with O => (- s / root A)%C | S k => x k end) <> C0) by (exists (S i); split; [lia|exact X]).
      apply D in E. rewrite form_block in E. cbv beta iota in E. fold s in E. 
      assert (Z : (root A * (- s / root A) + s)%C = C0) by (replace (root A * (- s / root A))%C with (- s / root A * root A)%C by ring; rewrite Cdiv_mult by apply root_nz; ring).
      rewrite Z in E. change (fun i : nat => x i) with x in E. replace (Cconj C0 * C0 + form n (schur A) x)%C with (form n (schur A) x) in E by ring. exact E.
    - rewrite form_block. set (t := (root A * x 0 + _)%C). rewrite Re_plus. replace (Cconj t * t)%C with (RtoC (Cnorm2 t)) by (rewrite <- Cmult_conj; ring). rewrite Re_RtoC.
      assert (Z : {exists k, k < n /\ x (S k) <> C0} + {forall k, k < n -> x (S k) = C0}).
      { clear - x. induction n as [|m IH]; [right; intros; lia|]. destruct IH as [IH|IH]; [left; destruct IH as [k [K N]]; exists k; split; [lia|exact N]|].
        destruct (Ceq_dec (x (S m)) C0) as [Q|Q]; [right|left; exists m; split; [lia|exact Q]]. intros k K. destruct (Nat.eq_dec k m) as [->|]; [exact Q|apply IH; lia]. }
      pose proof (Cnorm2_nonneg t) as T. destruct Z as [Z|Z]; [apply D in Z; lra|]. 
      assert (X0 : x 0 <> C0) by (destruct i as [|i]; [exact X|exfalso; apply X, Z; lia]).
      assert (F0 : form n (schur A) (fun i => x (S i)) = C0).
      { unfold form. rewrite (Csum_ext _ (fun _ => C0)); [apply Csum_zero|]. intros a Ia. apply in_seq in Ia. rewrite (Csum_ext _ (fun _ => C0)); [apply Csum_zero|]. intros b Ib. apply in_seq in Ib. rewrite (Z b) by lia. ring. }
      rewrite F0. assert (T0 : t = (root A * x 0)%C).
      { unfold t. rewrite (Csum_ext _ (fun _ => C0)); [rewrite Csum_zero; ring|]. intros b Ib. apply in_seq in Ib. rewrite (Z b) by lia. ring. }
      assert (TN : t <> C0). { rewrite T0. intros E. apply X0. rewrite <- (Cdiv_mult (x 0) (root A) root_nz). unfold Cdiv. replace (x 0 * Cinv (root A) * root A)%C with (Cinv (root A) * (root A * x 0))%C by ring. rewrite E. ring. }
      pose proof (Cnorm2_pos t TN). unfold C0, Re. cbn [fst]. lra.
  Qed.
End Block.
Lemma definite_first n A : hermitian (S n) A -> definite (S n) A -> (0 < Re (A O O))%R.
Proof.
  intros H D. specialize (D (fun i => if i =? 0 then C1 else C0)). assert (E : exists i, i < S n /\ (if i =? 0 then C1 else C0) <> C0) by (exists 0; split; [lia|cbn; intros E; injection E; lra]).
  apply D in E. replace (form (S n) A _) with (A 0 0) in E; [exact E|]. unfold form. rewrite Csum_S.
  assert (Z : Csum (fun i => Csum (fun j => (Cconj (if S i =? 0 then C1 else C0) * A (S i) j * (if j =? 0 then C1 else C0))%C) (seq 0 (S n))) (seq 0 n) = C0).
  { rewrite (Csum_ext _ (fun _ => C0)); [apply Csum_zero|]. intros i _. rewrite (Csum_ext _ (fun _ => C0)); [apply Csum_zero|]. intros j _. cbn [Nat.eqb]. replace (Cconj C0) with C0 by (unfold Cconj, C0; cbn [fst snd]; f_equal; lra). ring. }
  rewrite Z, Csum_S. assert (Z2 : Csum (fun i => (Cconj (if 0 =? 0 then C1 else C0) * A 0 (S i) * (if S i =? 0 then C1 else C0))%C) (seq 0 n) = C0).
  { rewrite (Csum_ext _ (fun _ => C0)); [apply Csum_zero|]. intros j _. cbn [Nat.eqb]. ring. }
  rewrite Z2. cbn [Nat.eqb]. replace (Cconj C1) with C1 by (unfold Cconj, C1; cbn [fst snd]; f_equal; lra). ring.
Qed.
Lemma cholesky_step n A : cholesky (S n) A = if Rlt_dec 0 (Re (A 0 0)) then
  match cholesky n (schur A) with
  | None => None
  | Some L => Some (fun i j => match i, j with O, O => root A | O, S _ => C0 | S i', O => first_column A i' | S i', S j' => L i' j' end)
  end else None.
Proof. reflexivity. Qed.
Lemma cholesky_definite n : forall A, hermitian n A -> (cholesky n A <> None <-> definite n A).
Proof.
  induction n as [|n IH]; intros A H.
  - split; [|discriminate]. intros _ x [i [I _]]. lia.
  - rewrite cholesky_step. destruct (Rlt_dec 0 (Re (A 0 0))) as [P|P].
    + rewrite (schur_definite n A H P), <- (IH (schur A) (schur_hermitian n A H)). destruct (cholesky n (schur A)); split; congruence.
    + split; [congruence|]. intros D. exfalso. apply P. eapply definite_first; eauto.
Qed.
Lemma cholesky_factors n : forall A L, hermitian n A -> cholesky n A = Some L -> cholesky_factor n A L.
Proof.
  induction n as [|n IH]; intros A L H E.
  - split; [intros; lia|]. split; intros; lia.
  - rewrite cholesky_step in E. destruct (Rlt_dec 0 (Re (A 0 0))) as [P|P]; [|discriminate]. destruct (cholesky n (schur A)) as [M|] eqn:EM; [|discriminate]. injection E as <-.
    destruct (IH _ _ (schur_hermitian n A H) EM) as [T [D F]]. split; [|split].
    + intros [|i] [|j] I J K; try lia; [reflexivity|]. apply T; lia.
    + intros [|i] I; [|apply D; lia]. split; [reflexivity|]. unfold root, RtoC, Re. cbn [fst]. apply sqrt_lt_R0, P.
    + intros [|i] [|j] I J; rewrite Csum_S; cbv iota.
      * rewrite (Csum_ext _ (fun _ => C0)), Csum_zero by (intros; ring). rewrite root_conj, (root_sq n A H P). ring.
      * rewrite (Csum_ext _ (fun _ => C0)), Csum_zero by (intros; ring). rewrite (row_A n A H P) by lia. ring.
      * rewrite (Csum_ext _ (fun _ => C0)), Csum_zero by (intros; replace (Cconj C0) with C0 by (unfold Cconj, C0; cbn [fst snd]; f_equal; lra); ring). rewrite root_conj, (column_A n A P) by lia. ring.
      * rewrite F by lia. rewrite schur_A. ring.
Qed.
Lemma cholesky_solves n : forall A L b, hermitian n A -> cholesky n A = Some L -> length b = n ->
  length (cholesky_solve n L b) = n /\ solves n A (fun i => nth i b C0) (fun i => nth i (cholesky_solve n L b) C0).
Proof.
  induction n as [|n IH]; intros A L b H E LB.
  - split; [reflexivity|]. intros i I. lia.
  - rewrite cholesky_step in E. destruct (Rlt_dec 0 (Re (A 0 0))) as [P|P]; [|discriminate]. destruct (cholesky n (schur A)) as [M|] eqn:EM; [|discriminate]. injection E as <-.
    destruct b as [|b0 b]; [discriminate|]. injection LB as LB. unfold cholesky_solve. cbn [forward_substitution backward_substitution].
    set (y := (b0 / root A)%C). set (b' := map2 (fun i z => (z - first_column A i * y)%C) (range n) b).
    assert (LB' : length b' = n) by (unfold b'; rewrite Base.map2_length; unfold range; rewrite seq_length; lia).
    destruct (IH (schur A) M b' (schur_hermitian n A H) EM LB') as [LX SX]. change (backward_substitution n (fun i j => M i j) (forward_substitution n (fun i j => M i j) b')) with (cholesky_solve n M b').
    set (x := cholesky_solve n M b') in *. split; [cbn [length]; f_equal; exact LX|].
    set (s := Csum (fun i => (Cconj (first_column A i) * nth i x C0)%C) (range n)). assert (N : root A <> C0) by (apply root_nz, P). rewrite root_conj.
    set (x0 := ((y - s) / root A)%C). assert (X0 : (root A * x0)%C = (y - s)%C) by (unfold x0; rewrite <- (Cdiv_mult (y - s) (root A) N) at 2; ring).
    assert (Y : (root A * y)%C = b0) by (unfold y; rewrite <- (Cdiv_mult b0 (root A) N) at 2; ring).
    intros [|i] I; rewrite Csum_S; cbn [nth].
    + rewrite (Csum_ext _ (fun j => (root A * (Cconj (first_column A j) * nth j x C0))%C)) by (intros j J; apply in_seq in J; rewrite (row_A n A H P) by lia; ring).
      rewrite Csum_scal. fold (range n). fold s. rewrite <- (root_sq n A H P), <- Y. replace (root A * root A * x0)%C with (root A * (root A * x0))%C by ring. rewrite X0. ring.
    + assert (I' : i < n) by lia. specialize (SX i I'). rewrite (column_A n A P) by lia.
      rewrite (Csum_ext _ (fun j => (schur A i j * nth j x C0 + first_column A i * (Cconj (first_column A j) * nth j x C0))%C)) by (intros j _; rewrite schur_A; ring).
      rewrite Csum_plus, SX, Csum_scal. fold (range n). fold s. unfold b'. assert (RL : length (range n) = n) by (unfold range; apply seq_length). rewrite (map2_seq _ 0 C0) by lia. rewrite RL, nth_map_seq by exact I'.
      unfold range at 1. rewrite seq_nth by exact I'. cbn [Nat.add]. replace (first_column A i * root A * x0)%C with (first_column A i * (root A * x0))%C by ring. rewrite X0. ring.
Qed.

(** * Gaussian elimination *)

Definition lin (a x : list C) : C := Csum (fun z => z) (map2 Cmult a x).
Lemma lin_cons a0 a x0 x : lin (a0 :: a) (x0 :: x) = (a0 * x0 + lin a x)%C.
Proof. reflexivity. Qed.
Lemma lin_sum n a x : length a = n -> length x = n -> lin a x = Csum (fun j => (nth j a C0 * nth j x C0)%C) (seq 0 n).
Proof. intros LA LX. unfold lin. rewrite (map2_seq _ C0 C0) by lia. rewrite Csum_map, LA. reflexivity. Qed.
Lemma largest_perm es : forall p rest, largest es = Some (p, rest) -> Permutation.Permutation es (p :: rest) /\ Forall (fun e => (Cnorm2 (leading e) <= Cnorm2 (leading p))%R) es.
Proof.
  induction es as [|e t IH]; intros p rest E; [discriminate|]. cbn [largest] in E. destruct (largest t) as [[q r]|] eqn:L.
  - destruct (IH q r eq_refl) as [PM F]. destruct (Rlt_dec (Cnorm2 (leading e)) (Cnorm2 (leading q))) as [Q|Q]; injection E as <- <-.
    + split; [eapply Permutation.perm_trans; [apply Permutation.perm_skip, PM|apply Permutation.perm_swap]|]. constructor; [lra|exact F].
    + split; [apply Permutation.perm_skip, PM|]. constructor; [lra|]. eapply Forall_impl; [|exact F]. cbv beta. intros a Ha. lra.
  - injection E as <- <-. destruct t as [|e' t]; [|cbn [largest] in L; destruct (largest t) as [[? ?]|]; [destruct (Rlt_dec _ _)|]; discriminate]. split; [apply Permutation.Permutation_refl|]. constructor; [lra|constructor].
Qed.
Lemma largest_none es : largest es = None -> es = [].
Proof. destruct es as [|e t]; [reflexivity|]. cbn [largest]. destruct (largest t) as [[? ?]|]; [destruct (Rlt_dec _ _)|]; discriminate. Qed.
Lemma lin_eliminate m p e x : length (fst p) = S m -> length (fst e) = S m -> length x = m ->
  lin (fst (eliminate p e)) x = (lin (tl (fst e)) x - leading e / leading p * lin (tl (fst p)) x)%C.
Proof.
  destruct p as [[|p0 p] pr]; [discriminate|]. destruct e as [[|e0 e] er]; [discriminate|]. unfold eliminate, leading. cbn [fst snd tl nth length]. intros P E X.
  set (f := (e0 / p0)%C). assert (LE : length (map2 (fun a b => (a - f * b)%C) e p) = m) by (rewrite Base.map2_length; lia).
  rewrite (lin_sum m) by assumption. rewrite (lin_sum m e), (lin_sum m p) by lia. rewrite <- Csum_scal, <- Csum_minus. apply Csum_ext. intros j J. apply in_seq in J.
  rewrite (map2_seq _ C0 C0) by lia. injection E as E. rewrite E, nth_map_seq by lia. ring.
Qed.
Lemma Cnorm2_zero z : Cnorm2 z = 0%R -> z = C0.
Proof. intros H. destruct (Ceq_dec z C0) as [E|E]; [exact E|]. apply Cnorm2_pos in E. lra. Qed.
Lemma eliminate_length m p e : length (fst p) = S m -> length (fst e) = S m -> length (fst (eliminate p e)) = m.
Proof. unfold eliminate. cbn [fst]. rewrite Base.map2_length. destruct (fst p), (fst e); cbn [length tl]; lia. Qed.
Lemma split_row m (e : equation) (x0 : C) x : length (fst e) = S m -> lin (fst e) (x0 :: x) = (leading e * x0 + lin (tl (fst e)) x)%C.
Proof. destruct e as [[|e0 e] er]; [discriminate|]. reflexivity. Qed.
Lemma perm_len (es rest : list equation) p n : Permutation.Permutation es (p :: rest) -> length es = S n -> length rest = n.
Proof. intros PM L. apply Permutation.Permutation_length in PM. rewrite PM in L. cbn [length] in L. injection L. auto. Qed.
Lemma perm_lt (es rest : list equation) p n : Permutation.Permutation es (p :: rest) -> length es < S n -> length rest < n.
Proof. intros PM L. apply Permutation.Permutation_length in PM. rewrite PM in L. cbn [length] in L. lia. Qed.
Lemma solve_sound n : forall es x, Forall (fun e => length (fst e) = n) es -> length es = n -> solve n es = Some x -> length x = n /\ Forall (fun e => lin (fst e) x = snd e) es.
Proof.
  induction n as [|n IH]; intros es x F LE E.
  - injection E as <-. destruct es; [|discriminate]. split; [reflexivity|constructor].
  - cbn [solve] in E. destruct (largest es) as [[p rest]|] eqn:LG; [|discriminate]. destruct (Req_EM_T (Cnorm2 (leading p)) 0) as [Z|Z]; [discriminate|].
    destruct (solve n (map (eliminate p) rest)) as [x'|] eqn:ES; [|discriminate]. injection E as <-. destruct (largest_perm _ _ _ LG) as [PM _].
    pose proof (Permutation.Permutation_Forall PM F) as F'. apply Forall_cons_iff in F' as [FP FR].
    assert (NZ : leading p <> C0) by (intros Q; apply Z; rewrite Q; unfold Cnorm2, C0; cbn; lra).
    destruct (IH (map (eliminate p) rest) x') as [LX FX]; [|rewrite map_length; first [exact (perm_len _ _ _ _ PM LE) | exact (perm_lt _ _ _ _ PM LE)]|exact ES|].
    { apply Forall_map. eapply Forall_impl; [|exact FR]. cbv beta. intros e He. apply eliminate_length; assumption. }
    split; [cbn [length]; f_equal; exact LX|]. set (x0 := (_ / leading p)%C). assert (X0 : (leading p * x0)%C = (snd p - lin (tl (fst p)) x')%C) by (unfold x0, lin; rewrite <- (Cdiv_mult (snd p - _) (leading p) NZ) at 2; ring).
    apply (Permutation.Permutation_Forall (Permutation.Permutation_sym PM)). constructor.
    + rewrite (split_row n) by exact FP. rewrite X0. ring.
    + apply Forall_forall. intros e I. rewrite Forall_forall in FR. specialize (FR e I). rewrite (split_row n) by exact FR.
      rewrite Forall_forall in FX. specialize (FX _ (in_map _ _ _ I)). rewrite (lin_eliminate n) in FX by assumption. cbn [eliminate snd] in FX.
      assert (Q : (leading e * x0 = leading e / leading p * (leading p * x0))%C) by (replace (leading e / leading p * (leading p * x0))%C with (leading e / leading p * leading p * x0)%C by ring; rewrite Cdiv_mult by exact NZ; reflexivity).
      rewrite Q, X0. replace (lin (tl (fst e)) x')%C with ((lin (tl (fst e)) x' - leading e / leading p * lin (tl (fst p)) x') + leading e / leading p * lin (tl (fst p)) x')%C by ring. rewrite FX. ring.
Qed.
Lemma lin_unit m (a : list C) : length a = S m -> nth 0 a C0 = C0 -> lin a (C1 :: repeat C0 m) = C0.
Proof.
  destruct a as [|a0 a]; [discriminate|]. intros L Z. injection L as L. cbn [nth] in Z. subst a0. rewrite lin_cons, (lin_sum m a) by (rewrite ?repeat_length; lia).
  rewrite (Csum_ext _ (fun _ => C0)), Csum_zero; [ring|]. intros j _. rewrite nth_repeat. ring.
Qed.
Lemma unit_nonzero m : (C1 :: repeat C0 m) <> zero (S m).
Proof. unfold zero. cbn [repeat]. intros E. injection E as E. lra. Qed.
Lemma kernel_lift n p es x' : leading p <> C0 -> length (fst p) = S n -> Forall (fun e => length (fst e) = S n) es -> length x' = n -> x' <> zero n ->
  Forall (fun e => lin (fst e) x' = C0) (map (eliminate p) es) ->
  exists x, length x = S n /\ x <> zero (S n) /\ Forall (fun e => lin (fst e) x = C0) (p :: es).
Proof.
  intros NZ FP FR LX X F. exists ((- lin (tl (fst p)) x' / leading p)%C :: x'). split; [cbn [length]; f_equal; exact LX|]. split; [unfold zero in *; cbn [repeat]; intros E; injection E as _ E; auto|].
  set (x0 := (_ / leading p)%C). assert (X0 : (leading p * x0)%C = (- lin (tl (fst p)) x')%C) by (unfold x0; rewrite <- (Cdiv_mult (- _) (leading p) NZ) at 2; ring).
  constructor.
  - rewrite (split_row n) by exact FP. rewrite X0. ring.
  - apply Forall_forall. intros e I. rewrite Forall_forall in FR. specialize (FR e I). rewrite (split_row n) by exact FR.
    rewrite Forall_forall in F. specialize (F _ (in_map _ _ _ I)). rewrite (lin_eliminate n) in F by assumption.
    assert (Q : (leading e * x0 = leading e / leading p * (leading p * x0))%C) by (replace (leading e / leading p * (leading p * x0))%C with (leading e / leading p * leading p * x0)%C by ring; rewrite Cdiv_mult by exact NZ; reflexivity).
    rewrite Q, X0. replace (leading e / leading p * - lin (tl (fst p)) x' + lin (tl (fst e)) x')%C with (lin (tl (fst e)) x' - leading e / leading p * lin (tl (fst p)) x')%C by ring. exact F.
Qed.
Lemma no_pivot n es p rest : largest es = Some (p, rest) -> Cnorm2 (leading p) = 0%R -> Forall (fun e => length (fst e) = S n) es -> Forall (fun e => lin (fst e) (C1 :: repeat C0 n) = C0) es.
Proof.
  intros LG Z F. destruct (largest_perm _ _ _ LG) as [_ B]. rewrite Forall_forall in *. intros e I. apply lin_unit; [apply F, I|]. apply Cnorm2_zero. specialize (B e I). unfold leading in *. pose proof (Cnorm2_nonneg (nth 0 (fst e) C0)). lra.
Qed.
Lemma solve_none n : forall es, Forall (fun e => length (fst e) = n) es -> length es = n -> solve n es = None -> exists x, length x = n /\ x <> zero n /\ Forall (fun e => lin (fst e) x = C0) es.
Proof.
  induction n as [|n IH]; intros es F LE E; [discriminate|]. cbn [solve] in E. destruct (largest es) as [[p rest]|] eqn:LG; [|apply largest_none in LG; subst es; discriminate].
  destruct (Req_EM_T (Cnorm2 (leading p)) 0) as [Z|Z].
  - exists (C1 :: repeat C0 n). split; [cbn [length]; rewrite repeat_length; reflexivity|]. split; [apply unit_nonzero|]. eapply no_pivot; eauto.
  - destruct (solve n (map (eliminate p) rest)) as [x'|] eqn:ES; [discriminate|]. destruct (largest_perm _ _ _ LG) as [PM _]. pose proof (Permutation.Permutation_Forall PM F) as F'. apply Forall_cons_iff in F' as [FP FR].
    destruct (IH (map (eliminate p) rest)) as [x' [LX [X FX]]]; [|rewrite map_length; first [exact (perm_len _ _ _ _ PM LE) | exact (perm_lt _ _ _ _ PM LE)]|exact ES|].
    { apply Forall_map. eapply Forall_impl; [|exact FR]. cbv beta. intros e He. apply eliminate_length; assumption. }
    destruct (kernel_lift n p rest x') as [x [L1 [L2 L3]]]; auto. { intros Q; apply Z; rewrite Q; unfold Cnorm2, C0; cbn; lra. }
    exists x. split; [exact L1|]. split; [exact L2|]. apply (Permutation.Permutation_Forall (Permutation.Permutation_sym PM) L3).
Qed.
(** Fewer equations than unknowns. *)
Lemma kernel n : forall es : list equation, Forall (fun e => length (fst e) = n) es -> length es < n -> exists x, length x = n /\ x <> zero n /\ Forall (fun e => lin (fst e) x = C0) es.
Proof.
  induction n as [|n IH]; intros es F LE; [lia|]. destruct (largest es) as [[p rest]|] eqn:LG.
  - destruct (Req_EM_T (Cnorm2 (leading p)) 0) as [Z|Z].
    + exists (C1 :: repeat C0 n). split; [cbn [length]; rewrite repeat_length; reflexivity|]. split; [apply unit_nonzero|]. eapply no_pivot; eauto.
    + destruct (largest_perm _ _ _ LG) as [PM _]. pose proof (Permutation.Permutation_Forall PM F) as F'. apply Forall_cons_iff in F' as [FP FR].
      destruct (IH (map (eliminate p) rest)) as [x' [LX [X FX]]]; [|rewrite map_length; first [exact (perm_len _ _ _ _ PM LE) | exact (perm_lt _ _ _ _ PM LE)]|].
      { apply Forall_map. eapply Forall_impl; [|exact FR]. cbv beta. intros e He. apply eliminate_length; assumption. }
      destruct (kernel_lift n p rest x') as [x [L1 [L2 L3]]]; auto. { intros Q; apply Z; rewrite Q; unfold Cnorm2, C0; cbn; lra. }
      exists x. split; [exact L1|]. split; [exact L2|]. apply (Permutation.Permutation_Forall (Permutation.Permutation_sym PM) L3).
  - apply largest_none in LG. subst es. exists (C1 :: repeat C0 n). split; [cbn [length]; rewrite repeat_length; reflexivity|]. split; [apply unit_nonzero|constructor].
Qed.

(** * The explicit jacobian *)

Lemma slice_blocks {A} (g : nat -> list A) w : forall B a i, (forall j, length (g j) = w) -> i < B -> slice (flat_map g (seq a B)) (i * w) ((i + 1) * w) = g (a + i).
Proof.
  induction B as [|B IH]; intros a i H I; [lia|]. cbn [seq flat_map]. unfold slice. replace ((i + 1) * w - i * w) with w by (rewrite Nat.mul_add_distr_r; lia).
  destruct i as [|i].
  - cbn [Nat.mul skipn]. rewrite firstn_app, H, Nat.sub_diag. cbn [firstn]. rewrite app_nil_r, Nat.add_0_r. apply firstn_all2. rewrite H. lia.
  - rewrite skipn_app, H. replace (S i * w - w) with (i * w) by (cbn; lia). rewrite (skipn_all2 (g a)) by (rewrite H; cbn; lia). cbn [app].
    specialize (IH (S a) i H ltac:(lia)). unfold slice in IH. replace ((i + 1) * w - i * w) with w in IH by (rewrite Nat.mul_add_distr_r; lia). rewrite IH. f_equal. lia.
Qed.
Lemma flat_length {A} (f : C -> A) B size d : length (flat_derivatives f B size d) = B * size.
Proof.
  unfold flat_derivatives. generalize 0 at 2. induction B as [|B IH]; intros a; [reflexivity|]. cbn [seq flat_map]. rewrite app_length, map_length, seq_length, IH. reflexivity.
Qed.
Lemma reshape_flat {A} (f : C -> A) B size d : 0 < B -> reshape_rows B (flat_derivatives f B size d) = Ok (map (fun i => map (fun k => f (d i k)) (seq 0 size)) (range B)).
Proof.
  intros P. unfold reshape_rows. rewrite flat_length. rewrite (Nat.mul_comm B size), Nat.mod_mul, Nat.div_mul by lia. replace (B =? 0) with false by (symmetry; apply Nat.eqb_neq; lia). cbn [Nat.eqb negb orb].
  f_equal. apply map_ext_in. intros i I. apply in_seq in I. unfold flat_derivatives. rewrite (slice_blocks _ size B 0 i) by (intros; rewrite ?map_length, ?seq_length; lia). reflexivity.
Qed.
Lemma map2_app {A B D} (f : A -> B -> D) l1 : forall l2 m1 m2, length l1 = length m1 -> map2 f (l1 ++ l2) (m1 ++ m2) = map2 f l1 m1 ++ map2 f l2 m2.
Proof. induction l1 as [|a l1 IH]; intros l2 [|b m1] m2 H; try discriminate; [reflexivity|]. cbn [app map2]. rewrite IH by (injection H; auto). reflexivity. Qed.
Lemma pair_flat B size d : map2 (fun a b : R => (a, b)) (flat_derivatives Re B size d) (flat_derivatives Im B size d) = flat_derivatives (fun z => z) B size d.
Proof.
  unfold flat_derivatives. induction (seq 0 B) as [|i l IH]; [reflexivity|]. cbn [flat_map]. rewrite map2_app by (rewrite !map_length; reflexivity). rewrite IH. apply (f_equal2 (@app C)); [|reflexivity].
  clear IH. induction (seq 0 size) as [|k t IHk]; [reflexivity|]. cbn [map map2]. apply (f_equal2 (@cons C)); [destruct (d i k); reflexivity|exact IHk].
Qed.
Lemma complex_pairs B parts : to_complex_tensors (map snd (derivative_tensors B parts)) = map (fun p => flat_derivatives (fun z => z) B (fold_right Nat.mul 1 (fst p)) (snd p)) parts.
Proof. induction parts as [|p t IH]; [reflexivity|]. cbn [derivative_tensors flat_map map app snd to_complex_tensors]. rewrite pair_flat. exact (f_equal (@cons (list C) _) IH). Qed.
Definition rows_of (B : nat) (parts : list (list nat * (nat -> nat -> C))) : list (list C) :=
  map (fun i => concat (map (fun p => map (snd p i) (seq 0 (fold_right Nat.mul 1 (fst p)))) parts)) (seq 0 B).
Lemma jacobian_rows B parts : 0 < B -> parts <> [] -> get_predictions_jacobian (Some (derivative_tensors B parts)) = Ok (rows_of B parts).
Proof.
  intros P N. destruct parts as [|p t]; [contradiction|]. unfold get_predictions_jacobian. cbn [derivative_tensors flat_map app].
  match goal with |- context [to_complex_tensors ?l] => change (to_complex_tensors l) with (to_complex_tensors (map snd (derivative_tensors B (p :: t)))) end. rewrite complex_pairs.
  unfold tensors_to_matrix. cbn [map]. change (flat_derivatives (fun z => z) B (fold_right Nat.mul 1 (fst p)) (snd p) :: map (fun p => flat_derivatives (fun z => z) B (fold_right Nat.mul 1 (fst p)) (snd p)) t)
    with (map (fun p => flat_derivatives (fun z : C => z) B (fold_right Nat.mul 1 (fst p)) (snd p)) (p :: t)).
  assert (E : mapM (reshape_rows B) (map (fun p => flat_derivatives (fun z : C => z) B (fold_right Nat.mul 1 (fst p)) (snd p)) (p :: t)) =
    Ok (map (fun p => map (fun i => map (snd p i) (seq 0 (fold_right Nat.mul 1 (fst p)))) (range B)) (p :: t))).
  { clear N. induction (p :: t) as [|q l IH]; [reflexivity|]. cbn [map mapM]. rewrite reshape_flat by exact P. cbn [bind]. rewrite IH. reflexivity. }
  rewrite E. cbn [bind]. f_equal. unfold rows_of. apply map_ext_in. intros i I. apply in_seq in I. rewrite map_map. f_equal. apply map_ext. intros q. unfold range. rewrite nth_map_seq by lia. reflexivity.
Qed.
Lemma jacobian_empty parts : parts <> [] -> get_predictions_jacobian (Some (derivative_tensors 0 parts)) = Err GenericException.
Proof.
  intros N. destruct parts as [|p t]; [contradiction|]. unfold get_predictions_jacobian. cbn [derivative_tensors flat_map app].
  match goal with |- context [to_complex_tensors ?l] => change (to_complex_tensors l) with (to_complex_tensors (map snd (derivative_tensors 0 (p :: t)))) end. rewrite complex_pairs. reflexivity.
Qed.
