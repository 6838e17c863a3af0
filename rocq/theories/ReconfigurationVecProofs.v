(** Lists of complex numbers as vectors. *)
From Coq Require Import List ZArith Reals Bool Arith Lia Lra.
From Verif Require Import Base Cplx ReconfigurationModel ReconfigurationSpec.
Import ListNotations.

Lemma cadd_length a b : length a = length b -> length (cadd a b) = length a.
Proof. intros H. unfold cadd. rewrite Base.map2_length. lia. Qed.
Lemma csub_length a b : length a = length b -> length (csub a b) = length a.
Proof. intros H. unfold csub. rewrite Base.map2_length. lia. Qed.
Lemma cscale_length c a : length (cscale c a) = length a.
Proof. apply map_length. Qed.

Lemma nth_cadd a : forall b i, length a = length b -> nth i (cadd a b) C0 = (nth i a C0 + nth i b C0)%C.
Proof.
  induction a as [|x a IH]; intros [|y b] i H; try discriminate; unfold cadd in *; cbn [map2].
  - destruct i; cbn [nth]; ring.
  - destruct i; cbn [nth]; [reflexivity|]. apply IH. now injection H.
Qed.
Lemma nth_csub a : forall b i, length a = length b -> nth i (csub a b) C0 = (nth i a C0 - nth i b C0)%C.
Proof.
  induction a as [|x a IH]; intros [|y b] i H; try discriminate; unfold csub in *; cbn [map2].
  - destruct i; cbn [nth]; ring.
  - destruct i; cbn [nth]; [reflexivity|]. apply IH. now injection H.
Qed.
Lemma nth_cscale c a i : nth i (cscale c a) C0 = (c * nth i a C0)%C.
Proof. unfold cscale. revert i. induction a; intros [|i]; cbn [map nth]; auto; ring. Qed.
Lemma cvec_ext (a b : list C) : length a = length b -> (forall i, i < length a -> nth i a C0 = nth i b C0) -> a = b.
Proof.
  intros L H. apply (list_ext_nth C0); auto.
Qed.
Lemma nth_zero n i : nth i (zero n) C0 = C0.
Proof. unfold zero. revert i. induction n; intros [|i]; cbn [repeat nth]; auto. Qed.
Lemma zero_length n : length (zero n) = n.
Proof. apply repeat_length. Qed.

Lemma map2_seq {A B D} (f : A -> B -> D) (a : A) (b : B) : forall l1 l2, length l1 = length l2 ->
  map2 f l1 l2 = map (fun i => f (nth i l1 a) (nth i l2 b)) (seq 0 (length l1)).
Proof.
  induction l1 as [|x l1 IH]; intros [|y l2] H; try discriminate; [reflexivity|].
  cbn [map2 length seq map nth]. f_equal. rewrite IH by (now injection H). rewrite <- seq_shift, map_map. reflexivity.
Qed.

Lemma dot_inner n x y : length x = n -> length y = n -> dot x y = inner n x y.
Proof.
  intros Hx Hy. unfold dot, inner. rewrite (map2_seq _ C0 C0) by lia. rewrite Csum_map, Hx. reflexivity.
Qed.

Lemma inner_plus_r n x y z w : (forall i, i < n -> nth i w C0 = (nth i y C0 + nth i z C0)%C) -> inner n x w = (inner n x y + inner n x z)%C.
Proof.
  intros H. unfold inner. rewrite <- Csum_plus. apply Csum_ext. intros i Hi. apply in_seq in Hi. rewrite H by lia. ring.
Qed.
Lemma inner_minus_r n x y z w : (forall i, i < n -> nth i w C0 = (nth i y C0 - nth i z C0)%C) -> inner n x w = (inner n x y - inner n x z)%C.
Proof.
  intros H. unfold inner. rewrite <- Csum_minus. apply Csum_ext. intros i Hi. apply in_seq in Hi. rewrite H by lia. ring.
Qed.
Lemma inner_comb_r n x a y b z w : (forall i, i < n -> nth i w C0 = (a * nth i y C0 + b * nth i z C0)%C) ->
  inner n x w = (a * inner n x y + b * inner n x z)%C.
Proof.
  intros H. unfold inner. rewrite <- !Csum_scal, <- Csum_plus. apply Csum_ext. intros i Hi. apply in_seq in Hi. rewrite H by lia. ring.
Qed.
Lemma inner_conj n x y : Cconj (inner n x y) = inner n y x.
Proof.
  unfold inner. rewrite Csum_conj. apply Csum_ext. intros i _. rewrite Cconj_mult, Cconj_conj. ring.
Qed.
Lemma inner_comb_l n x a y b z w : (forall i, i < n -> nth i w C0 = (a * nth i y C0 + b * nth i z C0)%C) ->
  inner n w x = (Cconj a * inner n y x + Cconj b * inner n z x)%C.
Proof.
  intros H. rewrite <- (inner_conj n x w), (inner_comb_r n x a y b z w H), Cconj_plus, !Cconj_mult, !inner_conj. reflexivity.
Qed.
Lemma inner_self n x : inner n x x = RtoC (Rsum (fun i => Cnorm2 (nth i x C0)) (seq 0 n)).
Proof.
  unfold inner. rewrite <- Csum_RtoC. apply Csum_ext. intros i _. rewrite <- Cmult_conj. ring.
Qed.
Lemma Re_inner_self n x : (0 <= Re (inner n x x))%R.
Proof. rewrite inner_self, Re_RtoC. apply Rsum_nonneg. intros. apply Cnorm2_nonneg. Qed.
Lemma inner_self_zero n x : length x = n -> inner n x x = C0 -> x = zero n.
Proof.
  intros L E. rewrite inner_self in E. apply (f_equal Re) in E. rewrite Re_RtoC in E. unfold C0, Re in E. cbn [fst] in E.
  apply cvec_ext; [now rewrite zero_length|]. intros i Hi. rewrite nth_zero.
  assert (Z : Cnorm2 (nth i x C0) = 0%R).
  { apply Rle_antisym; [|apply Cnorm2_nonneg]. rewrite <- E.
    refine (Rsum_in_le (fun i => Cnorm2 (nth i x C0)) _ i _ _); [intros; apply Cnorm2_nonneg|apply in_seq; lia]. }
  unfold Cnorm2 in Z. destruct (nth i x C0) as [a b]. cbn [fst snd] in Z. unfold C0. f_equal; nra.
Qed.
Lemma inner_self_pos n x : length x = n -> x <> zero n -> (0 < Re (inner n x x))%R.
Proof.
  intros L N. destruct (Rle_lt_or_eq_dec _ _ (Re_inner_self n x)) as [H|H]; [assumption|]. exfalso. apply N.
  apply inner_self_zero; [assumption|]. rewrite inner_self in *. rewrite Re_RtoC in H. now rewrite <- H.
Qed.
Lemma float_norm_norm n x : length x = n -> float_norm x = norm n x.
Proof. intros L. unfold float_norm, norm. rewrite (dot_inner n) by assumption. now rewrite inner_self, Re_RtoC. Qed.
Lemma norm_nonneg n x : (0 <= norm n x)%R.
Proof. apply sqrt_pos. Qed.
Lemma norm_zero n : norm n (zero n) = 0%R.
Proof.
  unfold norm. rewrite (Rsum_ext _ (fun _ => 0%R)); [rewrite Rsum_zero; apply sqrt_0|].
  intros i _. rewrite nth_zero. unfold Cnorm2, C0. cbn [fst snd]. ring.
Qed.
Lemma norm_sq n x : (norm n x * norm n x)%R = Re (inner n x x).
Proof. unfold norm. rewrite sqrt_sqrt; [now rewrite inner_self, Re_RtoC|]. apply Rsum_nonneg. intros. apply Cnorm2_nonneg. Qed.

(** * Pairwise orthogonal vectors: at most n of them *)

Lemma bessel n vs : forall x, length x = n -> Forall (fun v => length v = n /\ v <> zero n) vs ->
  (forall i j, i < j < length vs -> inner n (nth i vs []) (nth j vs []) = C0) ->
  (Rsum (fun v => Cnorm2 (inner n v x) / Re (inner n v v)) vs <= Re (inner n x x))%R.
Proof.
  induction vs as [|v vs IH]; intros x Lx F O; [rewrite Rsum_nil; apply Re_inner_self|].
  inversion F as [|? ? [Lv Nv] Fv]; subst. rewrite Rsum_cons. set (n := length x) in *.
  pose proof (inner_self_pos n v Lv Nv) as Pv.
  set (g := (inner n v x / inner n v v)%C). set (x' := csub x (cscale g v)).
  assert (Lx' : length x' = n) by (unfold x'; rewrite csub_length; [reflexivity|]; rewrite cscale_length; lia).
  assert (E' : forall i, i < n -> nth i x' C0 = (C1 * nth i x C0 + (- g) * nth i v C0)%C).
  { intros i Hi. unfold x'. rewrite nth_csub by (rewrite cscale_length; lia). rewrite nth_cscale. ring. }
  assert (G : (g * inner n v v)%C = inner n v x).
  { unfold g. unfold Cdiv. replace (inner n v x * Cinv (inner n v v) * inner n v v)%C with (inner n v x * (inner n v v * Cinv (inner n v v)))%C by ring.
    rewrite Cmult_inv_r; [ring|]. intros Q. rewrite Q in Pv. unfold Re, C0 in Pv. cbn [fst] in Pv. lra. }
  assert (A : inner n v x' = C0) by (rewrite (inner_comb_r n v _ _ _ _ _ E'); rewrite <- G; ring).
  assert (B : forall s, In s vs -> inner n s x' = inner n s x).
  { intros s Hs. rewrite (inner_comb_r n s _ _ _ _ _ E'). apply (In_nth _ _ []) in Hs. destruct Hs as (j & Hj & <-).
    assert (inner n v (nth j vs []) = C0) by (apply (O 0 (S j)); cbn [length]; lia).
    rewrite <- (inner_conj n v), H. unfold Cconj, C0. cbn [fst snd]. rewrite Ropp_0. fold C0. ring. }
  assert (I : (Rsum (fun s => Cnorm2 (inner n s x') / Re (inner n s s)) vs <= Re (inner n x' x'))%R).
  { apply IH; auto. intros i j Hij. apply (O (S i) (S j)). cbn [length]. lia. }
  rewrite (Rsum_ext _ (fun s => Cnorm2 (inner n s x) / Re (inner n s s))%R) in I by (intros s Hs; now rewrite B).
  assert (N : Re (inner n x' x') = (Re (inner n x x) - Cnorm2 (inner n v x) / Re (inner n v v))%R).
  { rewrite (inner_comb_l n x' _ _ _ _ _ E'), A. rewrite <- (inner_conj n x' x).
    rewrite <- (inner_conj n x x').
    rewrite (inner_comb_r n x _ _ _ _ _ E'). rewrite <- (inner_conj n v x).
    assert (Gi : g = Cscale (/ Re (inner n v v)) (inner n v x)).
    { unfold g. rewrite (inner_self n v), Re_RtoC. apply Cdiv_RtoC. rewrite inner_self, Re_RtoC in Pv. lra. }
    rewrite Gi. destruct (inner n v x) as [a b]. rewrite (inner_self n x).
    set (q := Re (inner n v v)) in *. unfold Cnorm2, Cscale, Cconj, Cplus, Cmult, Copp, RtoC, C1, C0, Re. cbn [fst snd]. field. lra. }
  rewrite N in I. lra.
Qed.

Definition unit_vec (n j : nat) : list C := map (fun i => if i =? j then C1 else C0) (seq 0 n).
Lemma nth_unit n j i : i < n -> nth i (unit_vec n j) C0 = if i =? j then C1 else C0.
Proof.
  intros H. unfold unit_vec. rewrite (nth_indep _ C0 (if 0 =? j then C1 else C0)) by (rewrite map_length, seq_length; lia).
  rewrite (map_nth (fun i => if i =? j then C1 else C0)), seq_nth by lia. reflexivity.
Qed.
Lemma Csum_single {A} (f : A -> C) l a : NoDup l -> In a l -> (forall b, In b l -> b <> a -> f b = C0) -> Csum f l = f a.
Proof.
  induction l as [|x l IH]; intros N I Z; [destruct I|]. inversion N; subst. rewrite Csum_cons. destruct I as [->|I].
  - rewrite (Csum_ext _ (fun _ => C0)); [rewrite Csum_zero; ring|]. intros b Hb. apply Z; [now right|]. intros ->. contradiction.
  - rewrite (Z x); [|now left|]; [rewrite IH; auto; [ring|]|].
    + intros b Hb. apply Z. now right.
    + intros ->. contradiction.
Qed.
Lemma inner_unit n j v : j < n -> inner n v (unit_vec n j) = Cconj (nth j v C0).
Proof.
  intros H. unfold inner. rewrite (Csum_single _ _ j); [|apply seq_NoDup|apply in_seq; lia|].
  - rewrite nth_unit by assumption. rewrite Nat.eqb_refl. ring.
  - intros i Hi N. apply in_seq in Hi. rewrite nth_unit by lia. destruct (Nat.eqb_spec i j); [contradiction|ring].
Qed.

Lemma orthogonal_bound n vs : Forall (fun v => length v = n /\ v <> zero n) vs ->
  (forall i j, i < j < length vs -> inner n (nth i vs []) (nth j vs []) = C0) -> length vs <= n.
Proof.
  intros F O. apply INR_le.
  assert (S : (Rsum (fun j => Rsum (fun v => Cnorm2 (inner n v (unit_vec n j)) / Re (inner n v v)) vs) (seq 0 n) <= Rsum (fun _ => 1) (seq 0 n))%R).
  { apply Rsum_le. intros j Hj. apply in_seq in Hj.
    assert (L : length (unit_vec n j) = n) by (unfold unit_vec; now rewrite map_length, seq_length).
    replace 1%R with (Re (inner n (unit_vec n j) (unit_vec n j))); [now apply bessel|].
    rewrite inner_unit by lia. rewrite nth_unit by lia. rewrite Nat.eqb_refl. reflexivity. }
  rewrite Rsum_const, seq_length, Rmult_1_r, Rsum_exchange in S.
  rewrite (Rsum_ext _ (fun _ => 1%R)) in S; [rewrite Rsum_const, Rmult_1_r in S; exact S|].
  intros v Hv. rewrite Forall_forall in F. destruct (F v Hv) as [Lv Nv]. pose proof (inner_self_pos n v Lv Nv) as P.
  unfold Rdiv. rewrite Rsum_scal_r.
  rewrite (Rsum_ext _ (fun j => Cnorm2 (nth j v C0))).
  - rewrite inner_self, Re_RtoC in *. apply Rinv_r. lra.
  - intros j Hj. apply in_seq in Hj. rewrite inner_unit by lia. unfold Cnorm2, Cconj. cbn [fst snd]. ring.
Qed.

(** Subtracting the projections on orthogonal vectors. *)
Lemma orthogonalize n es : forall x, length x = n -> Forall (fun v => length v = n /\ v <> zero n) es ->
  (forall i j, i < j < length es -> inner n (nth i es []) (nth j es []) = C0) ->
  exists x', length x' = n /\ (forall e, In e es -> inner n e x' = C0) /\
    forall w, (forall e, In e es -> inner n w e = C0) -> inner n w x' = inner n w x.
Proof.
  induction es as [|v es IH]; intros x Lx F O; [exists x; split; [exact Lx|split; [intros e []|reflexivity]]|].
  inversion F as [|? ? [Lv Nv] Fv]; subst. set (n := length x) in *. pose proof (inner_self_pos n v Lv Nv) as Pv.
  set (g := (inner n v x / inner n v v)%C). set (x1 := csub x (cscale g v)).
  assert (Lx1 : length x1 = n) by (unfold x1; rewrite csub_length; [reflexivity|]; rewrite cscale_length; lia).
  assert (E1 : forall i, i < n -> nth i x1 C0 = (C1 * nth i x C0 + (- g) * nth i v C0)%C).
  { intros i Hi. unfold x1. rewrite nth_csub by (rewrite cscale_length; lia). rewrite nth_cscale. ring. }
  assert (G : (g * inner n v v)%C = inner n v x).
  { unfold g. unfold Cdiv. replace (inner n v x * Cinv (inner n v v) * inner n v v)%C with (inner n v x * (inner n v v * Cinv (inner n v v)))%C by ring.
    rewrite Cmult_inv_r; [ring|]. intros Q. rewrite Q in Pv. unfold Re, C0 in Pv. cbn [fst] in Pv. lra. }
  destruct (IH x1 Lx1 Fv) as (x' & Lx' & A & B); [intros i j Hij; apply (O (S i) (S j)); cbn [length]; lia|].
  exists x'. split; [exact Lx'|]. split.
  - intros e [<-|He]; [|now apply A]. rewrite B.
    + rewrite (inner_comb_r n v _ _ _ _ _ E1). rewrite <- G. ring.
    + intros e He. apply (In_nth _ _ []) in He. destruct He as (j & Hj & <-). apply (O 0 (S j)). cbn [length]. lia.
  - intros w Hw. rewrite B by (intros e He; apply Hw; now right). rewrite (inner_comb_r n w _ _ _ _ _ E1). rewrite (Hw v (or_introl eq_refl)). ring.
Qed.

(** Vectors [v i] with functionals [w i] in triangular position: at most n of them. *)
Lemma triangular_bound n m (v w : nat -> list C) : (forall i, i < m -> length (v i) = n /\ inner n (w i) (v i) <> C0) ->
  (forall i j, i < j < m -> inner n (w j) (v i) = C0) -> m <= n.
Proof.
  intros H T.
  assert (Q : forall k, k <= m -> exists es, length es = k /\ Forall (fun e => length e = n /\ e <> zero n) es /\
    (forall i j, i < j < length es -> inner n (nth i es []) (nth j es []) = C0) /\ forall j e, k <= j < m -> In e es -> inner n (w j) e = C0).
  { induction k as [|k IH]; intros Hk.
    - exists []. split; [reflexivity|]. split; [constructor|]. split; [cbn; lia|intros j e _ []].
    - destruct (IH ltac:(lia)) as (es & L & F & O & W). destruct (H k ltac:(lia)) as [Lv Nv].
      destruct (orthogonalize n es (v k) Lv F O) as (x & Lx & A & B).
      exists (es ++ [x]). split; [rewrite app_length; cbn [length]; lia|]. split; [|split].
      + apply Forall_app. split; [exact F|]. constructor; [|constructor]. split; [exact Lx|]. intros Z.
        apply Nv. rewrite <- B by (intros e He; apply W; [lia|exact He]). rewrite Z. unfold inner.
        rewrite (Csum_ext _ (fun _ => C0)); [apply Csum_zero|]. intros i _. rewrite nth_zero. ring.
      + intros i j Hij. rewrite app_length in Hij. cbn [length] in Hij. rewrite app_nth1 by lia.
        destruct (Nat.eq_dec j (length es)) as [->|N].
        * rewrite app_nth2, Nat.sub_diag by lia. apply A. apply nth_In. lia.
        * rewrite app_nth1 by lia. apply O. lia.
      + intros j e Hj He. apply in_app_iff in He. destruct He as [He|[<-|[]]]; [apply W; [lia|exact He]|].
        rewrite B by (intros e He; apply W; [lia|exact He]). apply T. lia. }
  destruct (Q m (le_n m)) as (es & L & F & O & _). rewrite <- L. now apply orthogonal_bound.
Qed.
