(** Proofs about the direct solvers and the statistics applied to the matrix of covariances (C82). *)
From Coq Require Import List ZArith Reals Lra Lia Bool Arith.
From Verif Require Import Base Cplx IsingModel ReconfigurationModel ReconfigurationSpec ReconfigurationVecProofs ReconfigurationCgProofs ReconfigurationProofs SolverModel SolverSpec SolverProofs.
Import ListNotations.
Local Open Scope nat_scope.

Lemma solve_unique n : forall es x z, Forall (fun e => length (fst e) = n) es -> solve n es = Some x -> length z = n -> Forall (fun e => lin (fst e) z = C0) es -> z = zero n.
Proof.
  induction n as [|n IH]; intros es x z F E LZ FZ.
  - destruct z; [reflexivity|discriminate].
  - cbn [solve] in E. destruct (largest es) as [[p rest]|] eqn:LG; [|discriminate]. destruct (Req_EM_T (Cnorm2 (leading p)) 0) as [Z|Z]; [discriminate|].
    destruct (solve n (map (eliminate p) rest)) as [x'|] eqn:ES; [|discriminate]. injection E as <-. destruct (largest_perm _ _ _ LG) as [PM _].
    pose proof (Permutation.Permutation_Forall PM F) as F'. apply Forall_cons_iff in F' as [FP FR]. pose proof (Permutation.Permutation_Forall PM FZ) as FZ'. apply Forall_cons_iff in FZ' as [ZP ZR].
    assert (NZ : leading p <> C0) by (intros Q; apply Z; rewrite Q; unfold Cnorm2, C0; cbn; lra).
    destruct z as [|z0 z]; [discriminate|]. injection LZ as LZ. rewrite (split_row n) in ZP by exact FP.
    assert (ZZ : z = zero n).
    { apply (IH (map (eliminate p) rest) x' z); [|exact ES|exact LZ|].
      - apply Forall_map. eapply Forall_impl; [|exact FR]. cbv beta. intros e He. apply eliminate_length; assumption.
      - apply Forall_map, Forall_forall. intros e I. rewrite Forall_forall in FR, ZR. specialize (FR e I). specialize (ZR e I). rewrite (split_row n) in ZR by exact FR.
        rewrite (lin_eliminate n) by assumption. assert (T1 : (lin (tl (fst e)) z = - (leading e * z0))%C) by (replace (lin (tl (fst e)) z) with (leading e * z0 + lin (tl (fst e)) z - leading e * z0)%C by ring; rewrite ZR; ring).
        assert (T2 : (lin (tl (fst p)) z = - (leading p * z0))%C) by (replace (lin (tl (fst p)) z) with (leading p * z0 + lin (tl (fst p)) z - leading p * z0)%C by ring; rewrite ZP; ring).
        rewrite T1, T2. replace (- (leading e * z0) - leading e / leading p * - (leading p * z0))%C with ((leading e / leading p * leading p - leading e) * z0)%C by ring. rewrite Cdiv_mult by exact NZ. ring. }
    unfold zero in *. cbn [repeat]. f_equal; [|exact ZZ]. subst z.
    assert (LP : length (tl (fst p)) = n) by (destruct (fst p); [discriminate|cbn [length tl] in *; lia]).
    rewrite (lin_sum n) in ZP by (rewrite ?repeat_length; auto). rewrite (Csum_ext _ (fun _ => C0)), Csum_zero in ZP by (intros j _; rewrite nth_repeat; ring).
    replace z0 with (z0 * (leading p * Cinv (leading p)))%C by (rewrite Cmult_inv_r by exact NZ; ring).
    replace (z0 * (leading p * Cinv (leading p)))%C with ((leading p * z0 + C0) * Cinv (leading p))%C by ring. rewrite ZP. ring.
Qed.

Lemma map2_range_map {A B} (f : nat -> A -> B) g n : map2 f (range n) (map g (range n)) = map (fun k => f k (g k)) (range n).
Proof. induction (range n) as [|k l IH]; [reflexivity|]. cbn [map map2]. now rewrite IH. Qed.
Lemma shifted n shift J : map2 (fun k row => map2 (fun l z => (z + (if k =? l then C1 else C0) * shift)%C) (range n) row) (range n) (gram_matrix n J) = s_matrix n shift J.
Proof. unfold gram_matrix, s_matrix. rewrite map2_range_map. apply map_ext. intros k. rewrite map2_range_map. reflexivity. Qed.

(** Vectors as functions and as lists. *)
Definition vec (n : nat) (x : nat -> C) : list C := map x (seq 0 n).
Lemma vec_length n x : length (vec n x) = n. Proof. unfold vec. now rewrite map_length, seq_length. Qed.
Lemma nth_vec n x i : i < n -> nth i (vec n x) C0 = x i. Proof. intros I. apply nth_map_seq, I. Qed.
Lemma vec_nth n l : length l = n -> vec n (fun i => nth i l C0) = l.
Proof. intros <-. unfold vec. apply map_nth_range. Qed.
Lemma vec_zero n x : vec n x <> zero n <-> exists i, i < n /\ x i <> C0.
Proof.
  split.
  - intros N. destruct (existsb (fun i => if Ceq_dec (x i) C0 then false else true) (seq 0 n)) eqn:E.
    + apply existsb_exists in E as [i [I E]]. apply in_seq in I. exists i. split; [lia|]. destruct (Ceq_dec (x i) C0); [discriminate|assumption].
    + exfalso. apply N. unfold zero. apply (nth_ext _ _ C0 C0); [rewrite vec_length, repeat_length; reflexivity|]. intros i I. rewrite vec_length in I. rewrite nth_vec, nth_repeat by exact I.
      destruct (Ceq_dec (x i) C0) as [Q|Q]; [exact Q|]. exfalso. rewrite <- not_true_iff_false in E. apply E, existsb_exists. exists i. split; [apply in_seq; lia|]. destruct (Ceq_dec (x i) C0); [contradiction|reflexivity].
  - intros [i [I X]] E. apply X. rewrite <- (nth_vec n x i I), E. apply nth_repeat.
Qed.

Section System.
  Context (n : nat) (O : list (list C)) (FO : Forall (fun row => length row = n) O) (HB : 0 < length O) (shift : C).
  Let J := jacobian_minus_mean n O.
  Let s := s_matrix n shift J.
  Definition entry_of (shift : C) : nat -> nat -> C := shifted_covariance O shift.
  Lemma entry k l : k < n -> l < n -> nth l (nth k s []) C0 = entry_of shift k l.
  Proof. intros K L. apply matrix_covariance; assumption. Qed.
  Lemma s_length : length s = n. Proof. apply s_matrix_rows. Qed.
  Lemma s_rows : Forall (fun row => length row = n) s. Proof. apply s_matrix_rows. Qed.
  Lemma s_row k : k < n -> length (nth k s []) = n.
  Proof. intros K. pose proof s_rows as F. rewrite Forall_forall in F. apply F, nth_In. rewrite s_length. exact K. Qed.
  Lemma entry_hermitian : Im shift = 0%R -> hermitian n (entry_of shift).
  Proof.
    intros R i j _ _. unfold entry_of, shifted_covariance, covariance, average at 1 4. rewrite !Cdiv_RtoC by (apply not_0_INR; lia). rewrite Cconj_plus. f_equal.
    - rewrite !Cscale_RtoC, Cconj_mult, Cconj_RtoC, Csum_conj. f_equal. apply Csum_ext. intros a _. rewrite Cconj_mult, Cconj_conj. ring.
    - rewrite (Nat.eqb_sym j i). destruct (i =? j); [|csolve]. destruct shift as [a b]. unfold Im in R. cbn in R. subst b. csolve.
  Qed.
  Lemma solves_s b x : length x = n -> solves n (entry_of shift) b (fun i => nth i x C0) <-> (forall i, i < n -> lin (nth i s []) x = b i).
  Proof.
    intros LX. split; intros H i I; specialize (H i I).
    - rewrite (lin_sum n) by (auto; apply s_row, I). rewrite <- H. apply Csum_ext. intros j Q. apply in_seq in Q. rewrite entry by lia. reflexivity.
    - rewrite (lin_sum n) in H by (auto; apply s_row, I). rewrite <- H. apply Csum_ext. intros j Q. apply in_seq in Q. rewrite entry by lia. reflexivity.
  Qed.
  Lemma form_s x : form n (entry_of shift) x = inner n (vec n x) (matvec s (vec n x)).
  Proof.
    unfold form, inner. apply Csum_ext. intros i I. apply in_seq in I. assert (I' : i < n) by lia. rewrite nth_vec by exact I'.
    rewrite (nth_matvec n) by (rewrite ?s_length, ?vec_length; auto using s_rows). rewrite <- Csum_scal. apply Csum_ext. intros j Q. apply in_seq in Q. rewrite entry, nth_vec by lia. ring.
  Qed.
  Lemma product_s x : length x = n -> matvec s x = covariance_vector_product n shift J x.
  Proof. intros L. apply (explicit_product n J (J_rows n O FO) shift x L). Qed.
  Lemma positive_s : Im shift = 0%R -> (0 < Re shift)%R -> definite n (entry_of shift).
  Proof.
    intros R P x X. rewrite form_s. apply vec_zero in X. rewrite product_s by apply vec_length.
    apply (product_positive n J (J_rows n O FO)); auto using vec_length. unfold J. rewrite (J_length n O). exact HB.
  Qed.
  Lemma semidefinite_s x : Im shift = 0%R -> (0 <= Re shift)%R -> (0 <= Re (form n (entry_of shift) x))%R.
  Proof.
    intros R P. rewrite form_s, product_s by apply vec_length. pose proof (product_lower n J (J_rows n O FO) shift) as Q. 
    specialize (Q ltac:(unfold J; rewrite (J_length n O); exact HB) (vec n x) (vec_length n x) R). 
    pose proof (Rmult_le_pos _ _ P (Re_inner_self n (vec n x))) as T. lra.
  Qed.

  (** The direct solvers. *)
  Lemma direct_cholesky b : Im shift = 0%R -> length b = n ->
    (definite n (entry_of shift) -> exists x, solve_directly true n shift J b = Ok x /\ length x = n /\ solves n (entry_of shift) (fun i => nth i b C0) (fun i => nth i x C0)) /\
    (~ definite n (entry_of shift) -> solve_directly true n shift J b = Err GenericException).
  Proof.
    intros R LB. unfold solve_directly. rewrite shifted. fold s. set (A := fun i j => nth j (nth i s []) C0).
    assert (H : hermitian n A) by (intros i j I Q; unfold A; rewrite !entry by assumption; apply entry_hermitian; assumption).
    assert (D : definite n A <-> definite n (entry_of shift)).
    { assert (E : forall x, form n A x = form n (entry_of shift) x).
      { intros x. unfold form. apply Csum_ext. intros i I. apply in_seq in I. apply Csum_ext. intros j Q. apply in_seq in Q. unfold A. rewrite entry by lia. reflexivity. }
      split; intros D x X; specialize (D x X); rewrite E in *; assumption. }
    pose proof (cholesky_definite n A H) as CD. destruct (cholesky n A) as [L|] eqn:EL.
    - split; [|intros N; exfalso; apply N, D, CD; discriminate]. intros _. exists (cholesky_solve n L b). split; [reflexivity|]. destruct (cholesky_solves n A L b H EL LB) as [LX S]. split; [exact LX|].
      intros i I. specialize (S i I). rewrite <- S. apply Csum_ext. intros j Q. apply in_seq in Q. unfold A. rewrite entry by lia. reflexivity.
    - split; [|reflexivity]. intros N. exfalso. apply D in N. apply CD in N. apply N. reflexivity.
  Qed.
  Lemma combine_rows (b : list C) : length b = n -> Forall (fun e : equation => length (fst e) = n) (combine s b).
  Proof. intros LB. apply Forall_forall. intros [r z] I. apply in_combine_l in I. pose proof s_rows as F. rewrite Forall_forall in F. apply F, I. Qed.
  Lemma combine_forall b (P : list C -> C -> Prop) : length b = n -> Forall (fun e : equation => P (fst e) (snd e)) (combine s b) <-> forall i, i < n -> P (nth i s []) (nth i b C0).
  Proof.
    intros LB. assert (E : length (combine s b) = n) by (rewrite combine_length, s_length, LB; lia). split.
    - intros F i I. rewrite Forall_forall in F. specialize (F (nth i (combine s b) ([], C0))). rewrite combine_nth in F by (rewrite s_length; auto). apply F. rewrite <- combine_nth by (rewrite s_length; auto). apply nth_In. lia.
    - intros F. apply Forall_forall. intros e I. apply (In_nth _ _ ([], C0)) in I as [i [I <-]]. rewrite combine_nth by (rewrite s_length; auto). apply F. lia.
  Qed.
  Lemma direct_solve b : length b = n ->
    (~ singular n (entry_of shift) -> exists x, solve_directly false n shift J b = Ok x /\ length x = n /\ solves n (entry_of shift) (fun i => nth i b C0) (fun i => nth i x C0)) /\
    (singular n (entry_of shift) -> solve_directly false n shift J b = Err GenericException).
  Proof.
    intros LB. unfold solve_directly. rewrite shifted. fold s. assert (E : length (combine s b) = n) by (rewrite combine_length, s_length, LB; lia).
    pose proof (combine_rows b LB) as F. destruct (solve n (combine s b)) as [x|] eqn:ES.
    - split.
      + intros _. exists x. split; [reflexivity|]. destruct (solve_sound n _ x F E ES) as [LX S]. split; [exact LX|]. apply solves_s; [exact LX|].
        intros i I. apply (combine_forall b (fun r z => lin r x = z) LB); assumption.
      + intros [z [Z S]]. exfalso. apply vec_zero in Z. apply Z. apply (solve_unique n (combine s b) x); auto using vec_length.
        apply (combine_forall b (fun r _ => lin r (vec n z) = C0) LB). apply (solves_s (fun _ => C0)); [apply vec_length|].
        intros i I. etransitivity; [|exact (S i I)]. apply Csum_ext. intros j Q. apply in_seq in Q. rewrite nth_vec by lia. reflexivity.
    - split; [|reflexivity]. intros N. exfalso. apply N. destruct (solve_none n _ F E ES) as [x [LX [X S]]]. exists (fun i => nth i x C0). split.
      + apply vec_zero. rewrite vec_nth by exact LX. exact X.
      + apply solves_s; [exact LX|]. intros i I. apply (combine_forall b (fun r _ => lin r x = C0) LB); assumption.
  Qed.
  Lemma definite_unique b x y : definite n (entry_of shift) -> solves n (entry_of shift) b x -> solves n (entry_of shift) b y -> forall i, i < n -> x i = y i.
  Proof.
    intros D X Y i I. destruct (Ceq_dec (x i) (y i)) as [E|E]; [exact E|]. exfalso. specialize (D (fun j => (x j - y j)%C)).
    assert (N : exists i, i < n /\ (x i - y i)%C <> C0) by (exists i; split; [exact I|]; intros Q; apply E; replace (x i) with (x i - y i + y i)%C by ring; rewrite Q; ring).
    specialize (D N). replace (form n (entry_of shift) (fun j => (x j - y j)%C)) with C0 in D; [cbn in D; lra|]. unfold form. symmetry.
    rewrite (Csum_ext _ (fun _ => C0)), Csum_zero; [reflexivity|]. intros k K. apply in_seq in K. assert (K' : k < n) by lia.
    rewrite (Csum_ext _ (fun j => (Cconj (x k - y k) * (entry_of shift k j * x j - entry_of shift k j * y j))%C)) by (intros; ring). rewrite Csum_scal, Csum_minus, (X k K'), (Y k K'). ring.
  Qed.
  Lemma definite_regular : definite n (entry_of shift) -> ~ singular n (entry_of shift).
  Proof.
    intros D [x [[i [I X]] S]]. apply X. apply (definite_unique (fun _ => C0) x (fun _ => C0) D S); [|exact I]. intros k K. rewrite (Csum_ext _ (fun _ => C0)), Csum_zero; [reflexivity|]. intros; ring.
  Qed.
End System.

(** * Statistics *)

Lemma gram_eq n J : gram_matrix n J = s_matrix n C0 J.
Proof. unfold gram_matrix, s_matrix. apply map_ext. intros k. apply map_ext. intros l. destruct (k =? l); ring. Qed.
Lemma filter_length_le {A} (f g : A -> bool) l : (forall a, f a = true -> g a = true) -> length (filter f l) <= length (filter g l).
Proof. intros H. induction l as [|a l IH]; [reflexivity|]. cbn [filter]. specialize (H a). destruct (f a); [rewrite H by reflexivity; cbn [length]; lia|]. destruct (g a); cbn [length]; lia. Qed.
Lemma filter_map_length {A B} (f : B -> bool) (g : A -> B) l : length (filter f (map g l)) = length (filter (fun a => f (g a)) l).
Proof. induction l as [|a l IH]; [reflexivity|]. cbn [map filter]. destruct (f (g a)); cbn [length]; rewrite IH; reflexivity. Qed.
Lemma filter_filter {A} (f g : A -> bool) l : filter f (filter g l) = filter (fun a => f a && g a) l.
Proof. induction l as [|a l IH]; [reflexivity|]. cbn [filter]. destruct (g a); cbn [filter]; destruct (f a); cbn [andb]; rewrite IH; reflexivity. Qed.

Section Spectrum.
  Context (n : nat) (O : list (list C)) (FO : Forall (fun row => length row = n) O) (HB : 0 < length O) (eigvals : list R).
  Let J := jacobian_minus_mean n O.
  Let B := length O.
  Context (SP : spectrum n (entry_of O C0) eigvals).
  Definition nonzero (r : R) : bool := if Req_EM_T r 0 then false else true.

  Lemma eigen_nonneg p : p < n -> (0 <= nth p eigvals 0)%R.
  Proof.
    intros P. destruct SP as [_ [v [ON EV]]]. pose proof (semidefinite_s n O FO HB C0 (v p) eq_refl (Rle_refl 0)) as S.
    replace (form n (entry_of O C0) (v p)) with (RtoC (nth p eigvals 0%R)) in S; [exact S|]. unfold form.
    rewrite (Csum_ext _ (fun i => (RtoC (nth p eigvals 0%R) * (Cconj (v p i) * v p i))%C)).
    - rewrite Csum_scal, ON, Nat.eqb_refl by exact P. ring.
    - intros i I. apply in_seq in I. rewrite (Csum_ext _ (fun j => (Cconj (v p i) * (entry_of O C0 i j * v p j))%C)) by (intros; ring). rewrite Csum_scal, EV by lia. ring.
  Qed.
  Lemma eigen_count : length (filter (fun p => nonzero (nth p eigvals 0%R)) (seq 0 n)) < B.
  Proof.
    destruct SP as [_ [v [ON EV]]]. set (l := filter _ _). set (w := fun p => matvec J (vec n (v p))). pose proof (J_rows n O FO) as FJ. fold J in FJ. assert (LJ : length J = B) by apply (J_length n O).
    assert (LW : forall p, length (w p) = B) by (intros p; unfold w; rewrite (matvec_length J); exact LJ).
    assert (IW : forall p q, p < n -> q < n -> inner B (w p) (w q) = (RtoC (INR B) * (RtoC (nth q eigvals 0%R) * (if p =? q then C1 else C0)))%C).
    { intros p q P Q. pose proof (product_form n J FJ C0 (vec n (v p)) (vec n (v q)) (vec_length n _) (vec_length n _)) as PF. rewrite LJ in PF.
      rewrite <- (product_s n O FO C0) in PF by apply vec_length.
      assert (E1 : inner n (vec n (v p)) (matvec (s_matrix n C0 (jacobian_minus_mean n O)) (vec n (v q))) = (RtoC (nth q eigvals 0%R) * (if p =? q then C1 else C0))%C).
      { unfold inner. rewrite <- (ON p q P Q), <- Csum_scal. apply Csum_ext. intros i I. apply in_seq in I. assert (I' : i < n) by lia. rewrite nth_vec by exact I'.
        rewrite (nth_matvec n _ (s_rows n O C0)) by (rewrite ?(s_length n O C0), ?vec_length; auto).
        rewrite (Csum_ext _ (fun j => (entry_of O C0 i j * v q j)%C)) by (intros j Hj; apply in_seq in Hj; rewrite (entry n O FO HB C0), nth_vec by lia; reflexivity).
        rewrite EV by assumption. ring. }
      rewrite E1 in PF. rewrite PF. unfold inner at 1.
      rewrite (Csum_ext (fun i => (Cconj (nth i (w p) C0) * nth i (w q) C0)%C) (fun i => (Cconj (Csum (fun k => nth k (nth i J []) C0 * nth k (vec n (v p)) C0)%C (seq 0 n)) * Csum (fun k => nth k (nth i J []) C0 * nth k (vec n (v q)) C0)%C (seq 0 n))%C)).
      - set (X := Csum _ (seq 0 B)). replace (RtoC (INR B) * (X * Cinv (RtoC (INR B)) + C0 * inner n (vec n (v p)) (vec n (v q))))%C with (X * (RtoC (INR B) * Cinv (RtoC (INR B))))%C by ring.
        rewrite Cmult_inv_r; [ring|]. apply RtoC_nz, not_0_INR. unfold B. lia.
      - intros i I. apply in_seq in I. unfold w. rewrite !(nth_matvec n J FJ) by (rewrite ?vec_length; auto; lia). reflexivity. }
    assert (IO : forall p, inner B (repeat C1 B) (w p) = C0).
    { intros p. unfold inner. rewrite (Csum_ext _ (fun i => Csum (fun k => nth k (nth i J []) C0 * nth k (vec n (v p)) C0)%C (seq 0 n))).
      - rewrite Csum_exchange. rewrite (Csum_ext _ (fun _ => C0)), Csum_zero; [reflexivity|]. intros k K. apply in_seq in K. rewrite Csum_scal_r. unfold J. unfold B. rewrite (J_centred n O FO HB) by lia. ring.
      - intros i I. apply in_seq in I. unfold w. rewrite (nth_matvec n J FJ) by (rewrite ?vec_length; auto; lia). rewrite (nth_indep _ C0 C1) by (rewrite repeat_length; lia). rewrite nth_repeat. replace (Cconj C1) with C1 by csolve. ring. }
    assert (IL : forall p, In p l -> p < n /\ nth p eigvals 0%R <> 0%R).
    { intros p I. apply filter_In in I as [I N]. apply in_seq in I. split; [lia|]. unfold nonzero in N. destruct (Req_EM_T _ _); [discriminate|assumption]. }
    assert (ND : NoDup l) by (apply NoDup_filter, seq_NoDup).
    assert (G : length (repeat C1 B :: map w l) <= B).
    { apply orthogonal_bound.
      - constructor.
        + split; [apply repeat_length|]. unfold zero. intros E. apply (f_equal (fun t => nth 0 t C0)) in E. rewrite nth_repeat in E. fold B in HB. destruct B; [lia|]. cbn in E. injection E. lra.
        + apply Forall_map, Forall_forall. intros p I. destruct (IL p I) as [P N]. split; [apply LW|]. intros Z. specialize (IW p p P P). rewrite Z, Nat.eqb_refl in IW. apply N.
          assert (Q : inner B (zero B) (zero B) = C0) by (unfold inner, zero; rewrite (Csum_ext _ (fun _ => C0)), Csum_zero; [reflexivity|]; intros i _; rewrite nth_repeat; ring).
          rewrite Q in IW. assert (NB : INR B <> 0%R) by (apply not_0_INR; unfold B; lia). apply (f_equal Re) in IW. unfold Re, Cmult, RtoC, C1, C0 in IW. cbn [fst snd] in IW. 
          apply (Rmult_eq_reg_l (INR B)); [|exact NB]. lra.
      - intros i j [I K]. destruct j as [|j]; [lia|]. cbn [length] in K. rewrite map_length in K. destruct i as [|i]; cbn [nth].
        + rewrite (nth_map_lt _ _ _ 0) by lia. apply IO.
        + rewrite !(nth_map_lt _ _ _ 0) by lia. rewrite IW by (apply IL, nth_In; lia). destruct (Nat.eqb_spec (nth i l 0) (nth j l 0)) as [E|E]; [|ring].
          exfalso. apply NoDup_nth in E; lia || assumption. }
    cbn [length] in G. rewrite map_length in G. lia.
  Qed.
  Lemma rank_count epsilon s : fst (s_matrix_stats epsilon n s eigvals) <= length (filter (fun p => nonzero (nth p eigvals 0%R)) (seq 0 n)).
  Proof.
    unfold s_matrix_stats. cbn [fst]. rewrite filter_filter, filter_map_length. destruct SP as [LE _]. rewrite <- (map_nth_range eigvals 0%R) at 1. rewrite LE, filter_map_length.
    apply filter_length_le. intros p H. apply andb_true_iff in H as [H _]. unfold nonzero. destruct (Req_EM_T (nth p eigvals 0%R) 0) as [E|E]; [|reflexivity]. exfalso.
    destruct (Req_EM_T (Rabs (nth p eigvals 0%R)) 0) as [Q|Q]; [discriminate|]. apply Q. rewrite E. apply Rabs_R0.
  Qed.
  Lemma zero_eigenvalue : B <= n -> exists p, p < n /\ nth p eigvals 0%R = 0%R.
  Proof.
    intros L. pose proof eigen_count as G. destruct (forallb (fun p => nonzero (nth p eigvals 0%R)) (seq 0 n)) eqn:E.
    - exfalso. assert (Q : filter (fun p => nonzero (nth p eigvals 0%R)) (seq 0 n) = seq 0 n).
      { rewrite forallb_forall in E. clear G. induction (seq 0 n) as [|a t IH]; [reflexivity|]. cbn [filter]. rewrite (E a (or_introl eq_refl)). f_equal. apply IH. intros x X. apply E. right. exact X. }
      rewrite Q, seq_length in G. lia.
    - clear G. assert (X : existsb (fun p => negb (nonzero (nth p eigvals 0%R))) (seq 0 n) = true).
      { revert E. induction (seq 0 n) as [|a t IH]; [discriminate|]. cbn [forallb existsb]. destruct (nonzero _); cbn [andb negb orb]; auto. }
      apply existsb_exists in X as [p [I X]]. apply in_seq in I. exists p. split; [lia|]. unfold nonzero in X. destruct (Req_EM_T _ _); [assumption|discriminate].
  Qed.
End Spectrum.

(** * Options *)

Section Zero_shift.
  Context (n : nat) (O : list (list C)) (FO : Forall (fun row => length row = n) O) (HB : 0 < length O).
  Let J := jacobian_minus_mean n O.
  Lemma few_examples : length O <= n -> singular n (entry_of O C0).
  Proof.
    intros LE. assert (LJ : length J = length O) by apply (J_length n O). pose proof (J_rows n O FO) as FJ. fold J in FJ.
    destruct (kernel n (map (fun r => (r, C0)) (firstn (length O - 1) J))) as [x [LX [X FX]]].
    - apply Forall_map. cbn [fst]. apply Forall_forall. intros r I. rewrite Forall_forall in FJ. apply FJ. rewrite <- (firstn_skipn (length O - 1) J). apply in_or_app. left. exact I.
    - rewrite map_length, firstn_length, LJ. lia.
    - assert (Z : forall i, i < length O - 1 -> Csum (fun k => (nth k (nth i J []) C0 * nth k x C0)%C) (seq 0 n) = C0).
      { intros i I. rewrite Forall_forall in FX. specialize (FX (nth i J [], C0)). cbn [fst] in FX. rewrite (lin_sum n) in FX by (auto; apply (row_length n J FJ); rewrite LJ; lia). apply FX.
        apply in_map_iff. exists (nth i J []). split; [reflexivity|]. rewrite <- (firstn_skipn (length O - 1) J) at 1. rewrite app_nth1 by (rewrite firstn_length, LJ; lia). apply nth_In. rewrite firstn_length, LJ. lia. }
      assert (ZL : Csum (fun k => (nth k (nth (length O - 1) J []) C0 * nth k x C0)%C) (seq 0 n) = C0).
      { set (g := fun i => Csum (fun k => (nth k (nth i J []) C0 * nth k x C0)%C) (seq 0 n)). change (g (length O - 1) = C0).
        assert (T : Csum g (seq 0 (length O)) = C0).
        { unfold g. rewrite Csum_exchange, (Csum_ext _ (fun _ => C0)), Csum_zero; [reflexivity|]. intros k K. apply in_seq in K. rewrite Csum_scal_r. unfold J. rewrite (J_centred n O FO HB) by lia. ring. }
        replace (length O) with (length O - 1 + 1) in T by lia. rewrite seq_app, Csum_app in T. rewrite (Csum_ext _ (fun _ => C0)), Csum_zero in T by (intros i I; apply in_seq in I; apply Z; lia).
        cbn [seq Nat.add] in T. rewrite Csum_cons in T. cbn [Csum map fold_right] in T. rewrite <- T. unfold Csum. cbn [map fold_right]. ring. }
      exists (fun i => nth i x C0). split; [apply vec_zero; rewrite vec_nth by exact LX; exact X|]. apply (solves_s n O FO HB C0); [exact LX|]. intros i I.
      pose proof (product_s n O FO C0 x LX) as P. apply (f_equal (fun l => nth i l C0)) in P. unfold matvec in P. rewrite (nth_map_lt _ _ _ []) in P by (rewrite (s_length n O C0); exact I).
      etransitivity; [exact P|]. rewrite (nth_product n J FJ) by assumption. rewrite LJ. rewrite (Csum_ext _ (fun _ => C0)), Csum_zero; [ring|]. intros a A. apply in_seq in A.
      destruct (Nat.eq_dec a (length O - 1)) as [->|N]; [rewrite ZL|rewrite Z by lia]; ring.
  Qed.
End Zero_shift.

Section Iterative.
  Context (n : nat) (O : list (list C)) (FO : Forall (fun row => length row = n) O) (HB : 0 < length O) (shift : C) (RS : Im shift = 0%R) (PS : (0 < Re shift)%R).
  Let J := jacobian_minus_mean n O.
  Lemma iterates (A : list C -> list C) b fuel tol max_iter : (forall v, length v = n -> A v = covariance_vector_product n shift J v) ->
    (0 <= tol)%R -> n < fuel -> (forall m, max_iter = Some m -> n <= m) -> length b = n ->
    exists s, conjugate_gradient A None max_iter fuel b None tol = Some s /\ length (cg_x s) = n /\
      forall y, length y = n -> solves n (entry_of O shift) (fun i => nth i b C0) (fun i => nth i y C0) -> (Re shift * norm n (csub y (cg_x s)) <= tol * norm n b)%R.
  Proof.
    intros HA T0 FU MI LB. pose proof (J_rows n O FO) as FJ. assert (HJ : 0 < length J) by (unfold J; rewrite (J_length n O); exact HB). fold J in FJ.
    pose proof (product_linear n J FJ shift) as LC.
    assert (LA : linear_map n A).
    { split; [intros x L; rewrite HA by exact L; apply LC, L|]. intros a c x y z Lx Ly Lz H i I. rewrite !HA by assumption. apply (proj2 LC a c x y z); assumption. }
    assert (SA : self_adjoint n A) by (intros x y Lx Ly; rewrite !HA by assumption; apply (product_self_adjoint n J FJ shift HJ RS); assumption).
    assert (PA : positive_definite n A) by (intros x Lx X; rewrite HA by assumption; apply (product_positive n J FJ shift HJ RS PS); assumption).
    assert (R0 : residual_of n A b (zero n) b).
    { split; [exact LB|]. intros i Hi. rewrite (proj2 LA C0 C0 (zero n) (zero n) (zero n)); try apply repeat_length; try exact Hi; [csolve|]. intros k Hk. rewrite nth_zero. csolve. }
    destruct (cg_converges_spec n A None b None LA SA PA ltac:(discriminate) LB ltac:(discriminate) max_iter fuel tol b T0 FU MI R0) as (s & E & I & T).
    destruct (cg_report_spec n A None b None LA ltac:(discriminate) LB ltac:(discriminate) max_iter fuel tol s b R0 E) as (Lx & R & _).
    exists s. split; [exact E|]. split; [exact Lx|]. intros y Ly Sy. eapply Rle_trans; [|exact T].
    apply (error_bound n J FJ shift HJ b); auto.
    - unfold J. rewrite <- (product_s n O FO shift) by exact Ly. apply cvec_ext.
      + rewrite (matvec_length (s_matrix n shift (jacobian_minus_mean n O))), (s_length n O shift). auto.
      + rewrite (matvec_length (s_matrix n shift (jacobian_minus_mean n O))), (s_length n O shift). intros i Hi. unfold matvec. rewrite (nth_map_lt _ _ _ []) by (rewrite (s_length n O shift); exact Hi).
        apply (solves_s n O FO HB shift (fun i => nth i b C0) y Ly); assumption.
    - destruct R as [Lr Hr]. split; [exact Lr|]. intros i Hi. rewrite Hr by exact Hi. rewrite HA by exact Lx. reflexivity.
  Qed.
End Iterative.
