(** The conjugate gradient loop. *)
From Coq Require Import List ZArith Reals Bool Arith Lia Lra.
From Verif Require Import Base Cplx ReconfigurationModel ReconfigurationSpec ReconfigurationVecProofs.
Import ListNotations.

Section States.
  Context (A : list C -> list C) (M : option (list C -> list C)) (max_iter : option nat) (start : cg_state).

  Fixpoint st (k : nat) : cg_state := match k with O => start | S j => cg_step A M j (st j) end.

  Lemma loop_some fuel tol : forall i s, cg_loop A M max_iter fuel tol i (st i) = Some s ->
    exists k, i <= k /\ s = st k /\ stopping_criterion max_iter tol k (st k) = false /\
      forall j, i <= j < k -> stopping_criterion max_iter tol j (st j) = true.
  Proof.
    induction fuel as [|f IH]; intros i s H; cbn [cg_loop] in H; [discriminate|].
    destruct (stopping_criterion max_iter tol i (st i)) eqn:E.
    - replace (i + 1) with (S i) in H by lia. change (cg_step A M i (st i)) with (st (S i)) in H.
      destruct (IH _ _ H) as (k & Hk & -> & F & T). exists k. split; [lia|]. split; [reflexivity|]. split; [exact F|].
      intros j Hj. destruct (Nat.eq_dec j i) as [->|N]; [exact E|]. apply T. lia.
    - injection H as <-. exists i. split; [lia|]. split; [reflexivity|]. split; [exact E|]. lia.
  Qed.

  Lemma loop_ends tol k : stopping_criterion max_iter tol k (st k) = false -> forall fuel i, i <= k < i + fuel ->
    exists s, cg_loop A M max_iter fuel tol i (st i) = Some s.
  Proof.
    intros H. induction fuel as [|f IH]; intros i Hi; [lia|]. cbn [cg_loop].
    destruct (stopping_criterion max_iter tol i (st i)) eqn:E; [|eauto].
    replace (i + 1) with (S i) by lia. change (cg_step A M i (st i)) with (st (S i)). apply IH.
    assert (i <> k) by (intros ->; congruence). lia.
  Qed.

  Lemma st_i k : cg_i start = 0 -> cg_i (st k) = k.
  Proof. intros H. destruct k as [|k]; [exact H|]. cbn [st]. unfold cg_step. destruct M; cbn [cg_i]; lia. Qed.
End States.

(** * The residual *)

Section Residual.
  Context (n : nat) (A : list C -> list C) (M : option (list C -> list C)) (b : list C) (x0 : option (list C)).
  Context (LA : linear_map n A) (LM : forall m, M = Some m -> forall v, length v = n -> length (m v) = n).
  Context (Lb : length b = n) (Lx : forall x, x0 = Some x -> length x = n).

  Lemma linear_zero : forall i, i < n -> nth i (A (zero n)) C0 = C0.
  Proof.
    intros i Hi. destruct LA as [_ L].
    rewrite (L C0 C0 (zero n) (zero n) (zero n)); auto using zero_length; [ring|].
    intros j _. rewrite nth_zero. ring.
  Qed.

  Definition good (s : cg_state) : Prop :=
    length (cg_x s) = n /\ length (cg_p s) = n /\ residual_of n A b (cg_x s) (cg_r s).

  Lemma start_good : good (cg_start A M b x0).
  Proof.
    unfold good, cg_start. cbn [cg_x cg_p cg_r].
    assert (R : residual_of n A b (match x0 with None => repeat C0 (length b) | Some x => x end) (match x0 with None => b | Some x => csub b (A x) end)).
    { destruct x0 as [x|].
      - specialize (Lx x eq_refl). destruct LA as [LA1 _]. specialize (LA1 x Lx). split; [rewrite csub_length; lia|].
        intros i Hi. rewrite nth_csub by lia. reflexivity.
      - split; [exact Lb|]. intros i Hi. rewrite Lb. fold (zero n). rewrite linear_zero by assumption. ring. }
    split; [|split; [|exact R]].
    - destruct x0 as [x|]; [now apply Lx|]. now rewrite repeat_length.
    - destruct R as [LR _]. destruct M as [m|]; [now apply LM|exact LR].
  Qed.

  Lemma step_good i s : good s -> good (cg_step A M i s).
  Proof.
    intros (Hx & Hp & Hr & Hres). assert (Hz : length (A (cg_p s)) = n) by now apply (proj1 LA).
    assert (L1 : length (cadd (cg_x s) (cscale (cg_gamma s / dot (cg_p s) (A (cg_p s))) (cg_p s))) = n)
      by (rewrite cadd_length; rewrite ?cscale_length; lia).
    assert (L2 : length (csub (cg_r s) (cscale (cg_gamma s / dot (cg_p s) (A (cg_p s))) (A (cg_p s)))) = n)
      by (rewrite csub_length; rewrite ?cscale_length; lia).
    assert (R : residual_of n A b (cadd (cg_x s) (cscale (cg_gamma s / dot (cg_p s) (A (cg_p s))) (cg_p s)))
        (csub (cg_r s) (cscale (cg_gamma s / dot (cg_p s) (A (cg_p s))) (A (cg_p s))))).
    { split; [exact L2|]. intros i' Hi. rewrite nth_csub, nth_cscale, Hres by (rewrite ?cscale_length; lia).
      rewrite (proj2 LA C1 (cg_gamma s / dot (cg_p s) (A (cg_p s)))%C (cg_x s) (cg_p s) (cadd (cg_x s) (cscale (cg_gamma s / dot (cg_p s) (A (cg_p s))) (cg_p s)))); auto; [ring|].
      intros j Hj. rewrite nth_cadd, nth_cscale by (rewrite cscale_length; lia). ring. }
    unfold good, cg_step. destruct M as [m|] eqn:EM; cbn [cg_x cg_p cg_r]; (split; [exact L1|split; [|exact R]]).
    - rewrite cadd_length; [now apply LM|]. rewrite cscale_length, Hp. now apply LM.
    - rewrite cadd_length; [exact L2|]. rewrite cscale_length. lia.
  Qed.

  Lemma st_good k : good (st A M (cg_start A M b x0) k).
  Proof. induction k as [|k IH]; [apply start_good|]. cbn [st]. now apply step_good. Qed.

  Lemma cg_report max_iter fuel tol s : conjugate_gradient A M max_iter fuel b x0 tol = Some s ->
    good s /\ (forall m, max_iter = Some m -> cg_i s <= m) /\
    ((forall m, max_iter = Some m -> cg_i s < m) -> (norm n (cg_r s) <= tol * norm n (cg_r (cg_start A M b x0)))%R).
  Proof.
    intros H. unfold conjugate_gradient in H. cbv zeta in H.
    set (t := (tol * float_norm (cg_r (cg_start A M b x0)))%R) in *.
    destruct (loop_some A M max_iter (cg_start A M b x0) fuel t 0 s H) as (k & _ & -> & F & T).
    pose proof (st_good k) as G. split; [exact G|].
    assert (I : cg_i (st A M (cg_start A M b x0) k) = k) by now apply st_i.
    split.
    - intros m ->. rewrite I. destruct (le_lt_dec k m) as [L|L]; [exact L|]. specialize (T m ltac:(lia)).
      unfold stopping_criterion in T. rewrite Nat.ltb_irrefl in T. discriminate.
    - intros S. unfold stopping_criterion in F.
      rewrite (float_norm_norm n) in F by apply G. unfold t in F. rewrite (float_norm_norm n) in F by apply start_good.
      destruct max_iter as [m|].
      + specialize (S m eq_refl). rewrite I in S. apply Nat.ltb_lt in S. rewrite S in F. cbn [andb] in F.
        destruct (Rlt_dec _ _) as [Q|Q]; [discriminate|lra].
      + destruct (Rlt_dec _ _) as [Q|Q]; [discriminate|lra].
  Qed.

  Lemma cg_limited m fuel tol : m < fuel -> exists s, conjugate_gradient A M (Some m) fuel b x0 tol = Some s.
  Proof.
    intros H. unfold conjugate_gradient. cbv zeta.
    apply (loop_ends A M (Some m) (cg_start A M b x0) _ m) with (i := 0); [|lia].
    unfold stopping_criterion. now rewrite Nat.ltb_irrefl.
  Qed.
End Residual.

(** * Convergence in n steps *)

Lemma Ceq_dec (u v : C) : {u = v} + {u <> v}.
Proof.
  destruct u as [a c], v as [d e]. destruct (Req_EM_T a d) as [->|H]; [|right; congruence]. destruct (Req_EM_T c e) as [->|H]; [now left|right; congruence].
Defined.

(** The preconditioner, the identity if there is none. *)
Definition prec (M : option (list C -> list C)) (v : list C) : list C := match M with None => v | Some m => m v end.
Lemma step_state A M i s : let r' := csub (cg_r s) (cscale (cg_gamma s / dot (cg_p s) (A (cg_p s))) (A (cg_p s))) in
  cg_r (cg_step A M i s) = r' /\ cg_gamma (cg_step A M i s) = dot r' (prec M r') /\
  cg_p (cg_step A M i s) = cadd (prec M r') (cscale (dot r' (prec M r') / cg_gamma s) (cg_p s)).
Proof. unfold cg_step, prec. destruct M; repeat split. Qed.
Lemma start_state A M b x0 : cg_p (cg_start A M b x0) = prec M (cg_r (cg_start A M b x0)) /\
  cg_gamma (cg_start A M b x0) = dot (cg_r (cg_start A M b x0)) (prec M (cg_r (cg_start A M b x0))).
Proof. unfold cg_start, prec. destruct M; split; reflexivity. Qed.
Section Prec.
  Context (n : nat) (M : option (list C -> list C)) (LM : forall m, M = Some m -> forall v, length v = n -> length (m v) = n).
  Context (HM : forall m, M = Some m -> self_adjoint n m /\ positive_definite n m).
  Lemma prec_length v : length v = n -> length (prec M v) = n.
  Proof. unfold prec. destruct M as [m|]; [apply (LM m eq_refl)|auto]. Qed.
  Lemma prec_sym u v : length u = n -> length v = n -> inner n (prec M u) v = inner n u (prec M v).
  Proof. unfold prec. destruct M as [m|]; [|reflexivity]. intros Hu Hv. symmetry. now apply (HM m eq_refl). Qed.
  Lemma prec_pos v : length v = n -> inner n v (prec M v) = C0 -> v = zero n.
  Proof.
    unfold prec. destruct M as [m|]; intros L E; [|now apply inner_self_zero].
    destruct (list_eq_dec Ceq_dec v (zero n)) as [Z|N]; [exact Z|].
    pose proof (proj2 (HM m eq_refl) v L N) as P. rewrite E in P. unfold Re, C0 in P. cbn [fst] in P. lra.
  Qed.
End Prec.

Section Convergence.
  Context (n : nat) (A : list C -> list C) (M : option (list C -> list C)) (b : list C) (x0 : option (list C)).
  Context (LA : linear_map n A) (HA : self_adjoint n A) (PA : positive_definite n A).
  Context (LM : forall m, M = Some m -> forall v, length v = n -> length (m v) = n).
  Context (HM : forall m, M = Some m -> self_adjoint n m /\ positive_definite n m).
  Context (Lb : length b = n) (Lx : forall x, x0 = Some x -> length x = n).

  Let start := cg_start A M b x0.
  Let s := st A M start.
  Let r k := cg_r (s k).
  Let p k := cg_p (s k).
  Let q k := prec M (r k).
  Let g k := cg_gamma (s k).
  Let alpha k := (g k / dot (p k) (A (p k)))%C.
  Let beta k := (g (S k) / g k)%C.

  Lemma G k : good n A b (s k).
  Proof. apply st_good; auto. Qed.
  Lemma Lr k : length (r k) = n. Proof. destruct (G k) as (_ & _ & H & _). exact H. Qed.
  Lemma Lp k : length (p k) = n. Proof. destruct (G k) as (_ & H & _). exact H. Qed.
  Lemma LAp k : length (A (p k)) = n. Proof. apply (proj1 LA), Lp. Qed.

  Lemma Lq k : length (q k) = n. Proof. apply prec_length; auto. apply Lr. Qed.
  Lemma q_sym i j : inner n (q i) (r j) = inner n (r i) (q j).
  Proof. apply prec_sym; auto; apply Lr. Qed.

  Lemma g_dot k : g k = dot (r k) (q k).
  Proof.
    destruct k as [|k]; [apply start_state|]. unfold q, r, g, s. cbn [st]. destruct (step_state A M k (st A M start k)) as (E1 & E2 & _).
    rewrite E1. exact E2.
  Qed.
  Lemma g_r k : g k = inner n (r k) (q k).
  Proof. rewrite <- dot_inner by (apply Lr || apply Lq). apply g_dot. Qed.
  Lemma r_step k i : nth i (r (S k)) C0 = (C1 * nth i (r k) C0 + (- alpha k) * nth i (A (p k)) C0)%C.
  Proof.
    assert (E : r (S k) = csub (r k) (cscale (alpha k) (A (p k)))) by apply (step_state A M k (st A M start k)).
    rewrite E, nth_csub, nth_cscale by (rewrite cscale_length, Lr, LAp; reflexivity). ring.
  Qed.
  Lemma p_step k i : nth i (p (S k)) C0 = (C1 * nth i (q (S k)) C0 + beta k * nth i (p k) C0)%C.
  Proof.
    assert (E : p (S k) = cadd (q (S k)) (cscale (beta k) (p k))).
    { unfold beta. rewrite (g_dot (S k)). unfold q, r, p, g, s. cbn [st]. destruct (step_state A M k (st A M start k)) as (E1 & _ & E3).
      rewrite E1. exact E3. }
    rewrite E, nth_cadd, nth_cscale; [ring|]. rewrite cscale_length, Lq, Lp. reflexivity.
  Qed.
  Lemma p_0 : p 0 = q 0. Proof. apply start_state. Qed.

  Definition pAp k := inner n (p k) (A (p k)).
  Lemma alpha_def k : alpha k = (g k / pAp k)%C.
  Proof. unfold alpha, pAp. rewrite (dot_inner n) by (apply Lp || apply LAp). reflexivity. Qed.

  Lemma real_of_conj (z : C) : Cconj z = z -> Im z = 0%R.
  Proof. intros H. apply (f_equal Im) in H. unfold Cconj, Im in H. cbn [snd] in H. unfold Im. lra. Qed.
  Lemma pAp_real k : Cconj (pAp k) = pAp k.
  Proof. unfold pAp. rewrite inner_conj. symmetry. apply HA; apply Lp. Qed.
  Lemma g_real k : Cconj (g k) = g k.
  Proof. rewrite g_r, inner_conj. apply q_sym. Qed.
  Lemma conj_div (u v : C) : Cconj u = u -> Cconj v = v -> Cconj (u / v)%C = (u / v)%C.
  Proof.
    intros Hu Hv. apply real_of_conj in Hu. apply real_of_conj in Hv. unfold Im in *. destruct u as [a c], v as [d e]. cbn [snd] in *. subst.
    unfold Cdiv, Cinv, Cmult, Cconj, Cnorm2. cbn [fst snd]. f_equal. unfold Rdiv. ring.
  Qed.
  Lemma alpha_real k : Cconj (alpha k) = alpha k.
  Proof. rewrite alpha_def. apply conj_div; [apply g_real|apply pAp_real]. Qed.

  (** As long as the residual does not vanish. *)
  Context (m : nat) (NZ : forall k, k <= m -> r k <> zero n).

  Lemma g_nonzero k : k <= m -> g k <> C0.
  Proof.
    intros H E. rewrite g_r in E. apply (NZ k H). apply (prec_pos n M LM HM); [apply Lr|exact E].
  Qed.

  Lemma Cdiv_mult (u v : C) : v <> C0 -> (u / v * v)%C = u.
  Proof. intros H. unfold Cdiv. replace (u * Cinv v * v)%C with (u * (v * Cinv v))%C by ring. rewrite Cmult_inv_r by assumption. ring. Qed.
  Lemma Cdiv_nonzero (u v : C) : u <> C0 -> v <> C0 -> (u / v)%C <> C0.
  Proof. intros Hu Hv E. apply Hu. rewrite <- (Cdiv_mult u v Hv), E. ring. Qed.
  Lemma Cmult_cancel (c u v : C) : c <> C0 -> (c * u = c * v)%C -> u = v.
  Proof.
    intros Hc E. transitivity (c * Cinv c * u)%C; [rewrite Cmult_inv_r by assumption; ring|].
    replace (c * Cinv c * u)%C with (Cinv c * (c * u))%C by ring. rewrite E.
    replace (Cinv c * (c * v))%C with (c * Cinv c * v)%C by ring. rewrite Cmult_inv_r by assumption. ring.
  Qed.

  Definition Inv (k : nat) : Prop :=
    (forall j, j < k -> inner n (q j) (r k) = C0) /\
    (forall j, j < k -> inner n (p j) (A (p k)) = C0) /\
    (forall j, j < k -> inner n (p j) (r k) = C0) /\
    inner n (p k) (r k) = g k.

  Lemma pAp_nonzero k : k <= m -> inner n (p k) (r k) = g k -> pAp k <> C0.
  Proof.
    intros H E Q. assert (N : p k <> zero n).
    { intros Z. rewrite Z in E. apply (g_nonzero k H). rewrite <- E. unfold inner.
      rewrite (Csum_ext _ (fun _ => C0)); [apply Csum_zero|]. intros i _. rewrite nth_zero. csolve. }
    pose proof (PA (p k) (Lp k) N) as P. fold (pAp k) in P. rewrite Q in P. unfold Re, C0 in P. cbn [fst] in P. lra.
  Qed.

  Lemma inv k : k <= S m -> Inv k.
  Proof.
    induction k as [k IH] using lt_wf_ind. intros Hk. destruct k as [|k].
    - split; [lia|split; [lia|split; [lia|]]]. rewrite p_0, g_r. apply q_sym.
    - assert (Km : k <= m) by lia.
      assert (I : forall j, j <= k -> Inv j) by (intros; apply IH; lia).
      assert (PP : forall j, j <= k -> pAp j <> C0). { intros j Hj. apply pAp_nonzero; [lia|]. apply (I j Hj). }
      assert (AL : forall j, j <= k -> alpha j <> C0). { intros j Hj. rewrite alpha_def. apply Cdiv_nonzero; [apply g_nonzero; lia|now apply PP]. }
      destruct (I k (le_n k)) as (I1 & I2 & I3 & I4).
      (* I3 *)
      assert (J3 : forall j, j < S k -> inner n (p j) (r (S k)) = C0).
      { intros j Hj. rewrite (inner_comb_r n (p j) _ _ _ _ _ (fun i _ => r_step k i)).
        destruct (Nat.eq_dec j k) as [->|N].
        - rewrite I4. fold (pAp k). rewrite alpha_def.
          replace (C1 * g k + - (g k / pAp k) * pAp k)%C with (g k - (g k / pAp k) * pAp k)%C by ring.
          rewrite Cdiv_mult by now apply PP. ring.
        - rewrite I3, I2 by lia. ring. }
      (* I1 *)
      assert (J1 : forall j, j < S k -> inner n (q j) (r (S k)) = C0).
      { intros j Hj. destruct j as [|j]; [rewrite <- p_0; apply J3; lia|].
        assert (E : forall i, i < n -> nth i (q (S j)) C0 = (C1 * nth i (p (S j)) C0 + (- beta j) * nth i (p j) C0)%C).
        { intros i _. rewrite p_step. ring. }
        rewrite (inner_comb_l n _ _ _ _ _ _ E), !J3 by lia. ring. }
      (* products of A p_j with the new residual *)
      assert (Q : forall j, j <= k -> (alpha j * inner n (A (p j)) (q (S k)))%C = (inner n (r j) (q (S k)) - inner n (r (S j)) (q (S k)))%C).
      { intros j Hj.
        rewrite (inner_comb_l n (q (S k)) _ _ _ _ _ (fun i _ => r_step j i)).
        replace (Cconj (- alpha j)) with (- alpha j)%C; [|transitivity (- Cconj (alpha j))%C; [now rewrite alpha_real|csolve]].
        replace (Cconj C1) with C1 by csolve. ring. }
      assert (J2 : forall j, j < S k -> inner n (p j) (A (p (S k))) = C0).
      { intros j Hj.
        assert (E : forall i, i < n -> nth i (A (p (S k))) C0 = (C1 * nth i (A (q (S k))) C0 + beta k * nth i (A (p k)) C0)%C).
        { apply (proj2 LA); [apply Lq|apply Lp|apply Lp|]. intros i _. apply p_step. }
        rewrite (inner_comb_r n (p j) _ _ _ _ _ E). rewrite HA by (apply Lp || apply Lq).
        destruct (Nat.eq_dec j k) as [->|N].
        - fold (pAp k). apply (Cmult_cancel (alpha k)); [apply AL; lia|].
          replace (alpha k * (C1 * inner n (A (p k)) (q (S k)) + beta k * pAp k))%C
            with (alpha k * inner n (A (p k)) (q (S k)) + beta k * (alpha k * pAp k))%C by ring.
          rewrite Q by lia. rewrite <- (q_sym k (S k)), J1 by lia. rewrite <- g_r. rewrite alpha_def, Cdiv_mult by (apply PP; lia).
          unfold beta. rewrite Cdiv_mult by (apply g_nonzero; lia). ring.
        - rewrite I2 by lia. apply (Cmult_cancel (alpha j)); [apply AL; lia|].
          replace (alpha j * (C1 * inner n (A (p j)) (q (S k)) + beta k * C0))%C with (alpha j * inner n (A (p j)) (q (S k)))%C by ring.
          rewrite Q by lia. rewrite <- !q_sym, !J1 by lia. ring. }
      split; [exact J1|split; [exact J2|split; [exact J3|]]].
      rewrite (inner_comb_l n (r (S k)) _ _ _ _ _ (fun i _ => p_step k i)). rewrite J3 by lia.
      replace (Cconj C1) with C1 by csolve. rewrite q_sym, <- g_r. ring.
  Qed.

  Lemma m_lt_n : m < n.
  Proof.
    enough (S m <= n) by lia. apply (triangular_bound n (S m) r q).
    - intros i Hi. split; [apply Lr|]. rewrite q_sym, <- g_r. apply g_nonzero. lia.
    - intros i j Hij. rewrite q_sym, <- inner_conj. destruct (inv j ltac:(lia)) as (I1 & _). rewrite I1 by lia. csolve.
  Qed.
End Convergence.

Section Ends.
  Context (n : nat) (A : list C -> list C) (M : option (list C -> list C)) (b : list C) (x0 : option (list C)).
  Context (LA : linear_map n A) (HA : self_adjoint n A) (PA : positive_definite n A).
  Context (LM : forall m, M = Some m -> forall v, length v = n -> length (m v) = n).
  Context (HM : forall m, M = Some m -> self_adjoint n m /\ positive_definite n m).
  Context (Lb : length b = n) (Lx : forall x, x0 = Some x -> length x = n).

  Lemma residual_vanishes : exists k, k <= n /\ cg_r (st A M (cg_start A M b x0) k) = zero n.
  Proof.
    assert (D : forall v : list C, {v = zero n} + {v <> zero n}).
    { intros v. apply list_eq_dec, Ceq_dec. }
    assert (Q : forall m, (exists k, k <= m /\ cg_r (st A M (cg_start A M b x0) k) = zero n) \/
      (forall k, k <= m -> cg_r (st A M (cg_start A M b x0) k) <> zero n)).
    { induction m as [|m [(k & Hk & E)|IH]].
      - destruct (D (cg_r (st A M (cg_start A M b x0) 0))) as [E|E]; [left; exists 0; split; [lia|exact E]|right].
        intros k Hk. replace k with 0 by lia. exact E.
      - left. exists k. split; [lia|exact E].
      - destruct (D (cg_r (st A M (cg_start A M b x0) (S m)))) as [E|E]; [left; exists (S m); split; [lia|exact E]|right].
        intros k Hk. destruct (Nat.eq_dec k (S m)) as [->|N]; [exact E|apply IH; lia]. }
    destruct (Q n) as [H|H]; [exact H|]. pose proof (m_lt_n n A M b x0 LA HA PA LM HM Lb Lx n H). lia.
  Qed.

  Lemma cg_converges max_iter fuel tol : (0 <= tol)%R -> n < fuel -> (forall m, max_iter = Some m -> n <= m) ->
    exists s, conjugate_gradient A M max_iter fuel b x0 tol = Some s /\ cg_i s <= n /\
      (norm n (cg_r s) <= tol * norm n (cg_r (cg_start A M b x0)))%R.
  Proof.
    intros Ht Hf Hm. destruct residual_vanishes as (k & Hk & E).
    set (start := cg_start A M b x0) in *.
    assert (Lr0 : length (cg_r start) = n).
    { destruct (start_good n A M b x0 LA LM Lb Lx) as (_ & _ & H & _). exact H. }
    assert (F : stopping_criterion max_iter (tol * float_norm (cg_r start)) k (st A M start k) = false).
    { unfold stopping_criterion. rewrite E, (float_norm_norm n (zero n)), norm_zero by apply zero_length.
      assert (0 <= tol * float_norm (cg_r start))%R.
      { rewrite (float_norm_norm n) by exact Lr0. apply Rmult_le_pos; [exact Ht|apply norm_nonneg]. }
      destruct (Rlt_dec _ 0) as [Q|Q]; [lra|]. destruct max_iter; [apply andb_false_r|reflexivity]. }
    destruct (loop_ends A M max_iter start _ k F fuel 0 ltac:(lia)) as (s & Hs).
    exists s. assert (C : conjugate_gradient A M max_iter fuel b x0 tol = Some s) by exact Hs. split; [exact C|].
    destruct (loop_some A M max_iter start _ _ _ _ Hs) as (k' & _ & -> & F' & T).
    assert (K : k' <= k). { destruct (le_lt_dec k' k) as [L|L]; [exact L|]. specialize (T k ltac:(lia)). congruence. }
    rewrite st_i by reflexivity. split; [lia|].
    unfold stopping_criterion in F'.
    destruct (st_good n A M b x0 LA LM Lb Lx k') as (_ & _ & Lk & _). fold start in Lk.
    rewrite (float_norm_norm n _ Lk), (float_norm_norm n _ Lr0) in F'.
    destruct (Rlt_dec _ _) as [Q|Q]; [|lra]. destruct max_iter as [m|]; [|discriminate]. rewrite andb_true_r in F'. apply Nat.ltb_ge in F'.
    specialize (Hm m eq_refl). assert (k' = k) by lia. subst k'. rewrite E, norm_zero.
    apply Rmult_le_pos; [exact Ht|apply norm_nonneg].
  Qed.
End Ends.
