(** The stochastic reconfiguration matrix and the optimizer. *)
From Coq Require Import List ZArith Reals Bool Arith Lia Lra.
From Verif Require Import ObservableModel Base Cplx ComplexModel ReconfigurationModel ReconfigurationSpec ReconfigurationVecProofs ReconfigurationCgProofs.
Import ListNotations.

Lemma nth_map_seq {A} (f : nat -> A) n i d : i < n -> nth i (map f (seq 0 n)) d = f i.
Proof.
  intros H. rewrite (nth_indep _ d (f 0)) by (rewrite map_length, seq_length; lia). rewrite (map_nth f), seq_nth by lia. reflexivity.
Qed.
Lemma nth_map_lt {A B} (f : A -> B) l i a d : i < length l -> nth i (map f l) d = f (nth i l a).
Proof. intros H. rewrite (nth_indep _ d (f a)) by (rewrite map_length; lia). apply map_nth. Qed.
Lemma Csum_div {A} (f : A -> C) l c : Csum (fun a => (f a / c)%C) l = (Csum f l / c)%C.
Proof. unfold Cdiv. apply Csum_scal_r. Qed.

Lemma norm_zero_inv n x : length x = n -> norm n x = 0%R -> x = zero n.
Proof.
  intros L H. apply inner_self_zero; [exact L|]. rewrite inner_self. unfold C0, RtoC. f_equal.
  rewrite <- (Re_RtoC (Rsum _ _)), <- inner_self, <- norm_sq, H. ring.
Qed.

Section Matrix.
  Context (n : nat) (J : list (list C)) (FJ : Forall (fun row => length row = n) J).
  Let B := length J.
  Let e i k := nth k (nth i J []) C0.

  Lemma row_length i : i < B -> length (nth i J []) = n.
  Proof. intros H. rewrite Forall_forall in FJ. apply FJ. now apply nth_In. Qed.

  Lemma matvec_length v : length (matvec J v) = B.
  Proof. apply map_length. Qed.
  Lemma nth_matvec v i : length v = n -> i < B -> nth i (matvec J v) C0 = Csum (fun k => (e i k * nth k v C0)%C) (seq 0 n).
  Proof.
    intros L H. unfold matvec. rewrite (nth_map_lt _ _ _ []) by assumption.
    rewrite (map2_seq _ C0 C0) by (rewrite row_length by assumption; lia). rewrite Csum_map, row_length by assumption. reflexivity.
  Qed.
  Lemma adjoint_length v : length (adjoint_matvec n J v) = n.
  Proof. unfold adjoint_matvec, range. now rewrite map_length, seq_length. Qed.
  Lemma nth_adjoint v k : length v = B -> k < n -> nth k (adjoint_matvec n J v) C0 = Csum (fun i => (Cconj (e i k) * nth i v C0)%C) (seq 0 B).
  Proof.
    intros L H. unfold adjoint_matvec, range. rewrite nth_map_seq by assumption. rewrite (map2_seq _ [] C0) by (symmetry; exact L).
    now rewrite Csum_map.
  Qed.

  Context (shift : C).
  Let c := Cinv (RtoC (INR B)).

  Lemma product_length v : length v = n -> length (covariance_vector_product n shift J v) = n.
  Proof.
    intros L. unfold covariance_vector_product. rewrite cadd_length; rewrite ?map_length, adjoint_length; auto. now rewrite cscale_length.
  Qed.
  Lemma nth_product v k : length v = n -> k < n ->
    nth k (covariance_vector_product n shift J v) C0 =
    (Csum (fun i => (Cconj (e i k) * Csum (fun l => (e i l * nth l v C0)%C) (seq 0 n))%C) (seq 0 B) * c + shift * nth k v C0)%C.
  Proof.
    intros L H. unfold covariance_vector_product.
    rewrite nth_cadd by (rewrite map_length, adjoint_length, cscale_length; lia). rewrite nth_cscale. f_equal.
    rewrite (nth_map_lt _ _ _ C0) by (rewrite adjoint_length; lia). fold B. unfold Cdiv. fold c. f_equal.
    rewrite nth_adjoint by (auto; now rewrite matvec_length). apply Csum_ext. intros i Hi. apply in_seq in Hi.
    rewrite nth_matvec by (auto; lia). reflexivity.
  Qed.

  Lemma s_matrix_entry k l : k < n -> l < n ->
    nth l (nth k (s_matrix n shift J) []) C0 =
    (Csum (fun i => (Cconj (e i k) * e i l)%C) (seq 0 B) * c + (if k =? l then C1 else C0) * shift)%C.
  Proof.
    intros Hk Hl. unfold s_matrix, range. rewrite !nth_map_seq by assumption. f_equal. unfold Cdiv. fold B. fold c. f_equal.
    rewrite (map2_seq _ [] []) by reflexivity. rewrite Csum_map. reflexivity.
  Qed.
  Lemma s_matrix_rows : Forall (fun row => length row = n) (s_matrix n shift J) /\ length (s_matrix n shift J) = n.
  Proof.
    unfold s_matrix, range. rewrite map_length, seq_length. split; [|reflexivity]. apply Forall_forall. intros row H.
    apply in_map_iff in H. destruct H as (k & <- & _). now rewrite map_length, seq_length.
  Qed.

  Lemma explicit_product v : length v = n -> matvec (s_matrix n shift J) v = covariance_vector_product n shift J v.
  Proof.
    intros L. destruct s_matrix_rows as [F LS]. apply cvec_ext.
    - unfold matvec. rewrite map_length, product_length by assumption. exact LS.
    - intros k Hk. unfold matvec in Hk. rewrite map_length, LS in Hk. rewrite nth_product by assumption.
      unfold matvec. rewrite (nth_map_lt _ _ _ []) by lia.
      assert (LR : length (nth k (s_matrix n shift J) []) = n). { rewrite Forall_forall in F. apply F. apply nth_In. lia. }
      rewrite (map2_seq _ C0 C0) by lia. rewrite Csum_map, LR.
      rewrite (Csum_ext _ (fun l => (Csum (fun i => (Cconj (e i k) * e i l)%C * nth l v C0 * c) (seq 0 B) +
        (if k =? l then shift * nth l v C0 else C0))%C)).
      + rewrite Csum_plus. f_equal.
        * rewrite Csum_exchange, <- Csum_scal_r. apply Csum_ext. intros i _. rewrite <- Csum_scal, <- Csum_scal_r. apply Csum_ext. intros l _. ring.
        * rewrite (Csum_single _ _ k); [now rewrite Nat.eqb_refl|apply seq_NoDup|apply in_seq; lia|].
          intros l _ N. destruct (Nat.eqb_spec k l); [congruence|reflexivity].
      + intros l Hl. apply in_seq in Hl. rewrite s_matrix_entry by lia.
        rewrite (Csum_ext (fun i => (Cconj (e i k) * e i l)%C * nth l v C0 * c)%C (fun i => (Cconj (e i k) * e i l)%C * (nth l v C0 * c))%C) by (intros; ring).
        rewrite Csum_scal_r. destruct (k =? l); ring.
  Qed.

  Lemma product_linear : linear_map n (covariance_vector_product n shift J).
  Proof.
    split; [intros; now apply product_length|]. intros a b x y z Lx Ly Lz H k Hk. rewrite !nth_product by assumption. rewrite (H k Hk).
    rewrite (Csum_ext _ (fun i => (a * (Cconj (e i k) * Csum (fun l => (e i l * nth l x C0)%C) (seq 0 n)) +
      b * (Cconj (e i k) * Csum (fun l => (e i l * nth l y C0)%C) (seq 0 n)))%C)).
    - rewrite Csum_plus, !Csum_scal. ring.
    - intros i _. rewrite (Csum_ext _ (fun l => (a * (e i l * nth l x C0) + b * (e i l * nth l y C0))%C)).
      + rewrite Csum_plus, !Csum_scal. ring.
      + intros l Hl. apply in_seq in Hl. rewrite H by lia. ring.
  Qed.

  (** <x, S y> *)
  Lemma product_form x y : length x = n -> length y = n ->
    inner n x (covariance_vector_product n shift J y) =
    (Csum (fun i => (Cconj (Csum (fun k => (e i k * nth k x C0)%C) (seq 0 n)) * Csum (fun l => (e i l * nth l y C0)%C) (seq 0 n))%C) (seq 0 B) * c
     + shift * inner n x y)%C.
  Proof.
    intros Lx Ly. unfold inner at 1.
    rewrite (Csum_ext _ (fun k => (Csum (fun i => Cconj (nth k x C0) * Cconj (e i k) * Csum (fun l => (e i l * nth l y C0)%C) (seq 0 n) * c) (seq 0 B) +
      shift * (Cconj (nth k x C0) * nth k y C0))%C)).
    - rewrite Csum_plus, Csum_scal. fold (inner n x y). f_equal. rewrite Csum_exchange, <- Csum_scal_r. apply Csum_ext. intros i _.
      rewrite Csum_conj, <- !Csum_scal_r. apply Csum_ext. intros k _. rewrite Cconj_mult. ring.
    - intros k Hk. apply in_seq in Hk. rewrite nth_product by (auto; lia).
      rewrite (Csum_ext (fun i => Cconj (nth k x C0) * Cconj (e i k) * Csum (fun l => (e i l * nth l y C0)%C) (seq 0 n) * c)%C
        (fun i => Cconj (nth k x C0) * ((Cconj (e i k) * Csum (fun l => (e i l * nth l y C0)%C) (seq 0 n)) * c))%C) by (intros; ring).
      rewrite Csum_scal, Csum_scal_r. ring.
  Qed.

  Context (HB : 0 < B).
  Lemma c_real : c = RtoC (/ INR B).
  Proof.
    unfold c. apply Cinv_unique. rewrite <- RtoC_mult. unfold C1, RtoC. f_equal. apply Rinv_r. apply not_0_INR. lia.
  Qed.
  Lemma invB_pos : (0 < / INR B)%R.
  Proof. apply Rinv_0_lt_compat. apply lt_0_INR. exact HB. Qed.

  Lemma product_self_adjoint : Im shift = 0%R -> self_adjoint n (covariance_vector_product n shift J).
  Proof.
    intros Hs x y Lx Ly. rewrite product_form by assumption.
    rewrite <- (inner_conj n y (covariance_vector_product n shift J x)), product_form by assumption.
    assert (S : Cconj shift = shift). { destruct shift as [a b]. unfold Im in Hs. cbn [snd] in Hs. subst. unfold Cconj. cbn [fst snd]. f_equal. ring. }
    rewrite Cconj_plus, !Cconj_mult, S, inner_conj. rewrite c_real at 2. rewrite Cconj_RtoC, <- c_real.
    f_equal. f_equal. rewrite Csum_conj. apply Csum_ext. intros i _. rewrite Cconj_mult, Cconj_conj. ring.
  Qed.

  Lemma product_lower x : length x = n -> Im shift = 0%R ->
    (Re shift * Re (inner n x x) <= Re (inner n x (covariance_vector_product n shift J x)))%R.
  Proof.
    intros L Hs. rewrite product_form by assumption. rewrite Re_plus.
    rewrite (Csum_ext _ (fun i => RtoC (Cnorm2 (Csum (fun k => (e i k * nth k x C0)%C) (seq 0 n))))).
    - rewrite Csum_RtoC, c_real, <- RtoC_mult, Re_RtoC.
      assert (0 <= Rsum (fun i => Cnorm2 (Csum (fun k => (e i k * nth k x C0)%C) (seq 0 n))) (seq 0 B))%R by (apply Rsum_nonneg; intros; apply Cnorm2_nonneg).
      pose proof invB_pos.
      assert (E : Re (shift * inner n x x)%C = (Re shift * Re (inner n x x))%R).
      { unfold Im in Hs. unfold Cmult, Re. cbn [fst]. rewrite Hs. ring. }
      rewrite E. nra.
    - intros i _. rewrite <- Cmult_conj. ring.
  Qed.

  Lemma product_positive : Im shift = 0%R -> (0 < Re shift)%R -> positive_definite n (covariance_vector_product n shift J).
  Proof.
    intros Hs P x L N. pose proof (product_lower x L Hs). pose proof (inner_self_pos n x L N). nra.
  Qed.

  (** Exactly one solution. *)
  Lemma solution_exists b : Im shift = 0%R -> (0 < Re shift)%R -> length b = n ->
    exists x, length x = n /\ covariance_vector_product n shift J x = b.
  Proof.
    intros Hs P Lb.
    destruct (cg_converges n (covariance_vector_product n shift J) None b None product_linear (product_self_adjoint Hs) (product_positive Hs P)
      ltac:(discriminate) ltac:(discriminate) Lb
      ltac:(discriminate) None (S n) 0 ltac:(lra) ltac:(lia) ltac:(discriminate)) as (s & E & _ & R).
    destruct (cg_report n (covariance_vector_product n shift J) None b None product_linear ltac:(discriminate) Lb ltac:(discriminate) _ _ _ _ E)
      as ((Lx & _ & Lr & Hr) & _). exists (cg_x s). split; [exact Lx|].
    assert (Z : cg_r s = zero n).
    { apply norm_zero_inv; [exact Lr|]. pose proof (norm_nonneg n (cg_r s)). lra. }
    apply cvec_ext; [rewrite product_length; lia|]. intros i Hi. rewrite product_length in Hi by assumption.
    specialize (Hr i Hi). rewrite Z, nth_zero in Hr.
    transitivity (nth i b C0 - (nth i b C0 - nth i (covariance_vector_product n shift J (cg_x s)) C0))%C; [ring|]. rewrite <- Hr. ring.
  Qed.

  (** The distance from the solution is at most the residual divided by the shift. *)
  Lemma cauchy x y : (Re (inner n x y) <= norm n x * norm n y)%R.
  Proof.
    pose proof (Re_inner_self n x) as Px. pose proof (Re_inner_self n y) as Py.
    pose proof (norm_sq n x) as Nx. pose proof (norm_sq n y) as Ny. pose proof (norm_nonneg n x) as Zx. pose proof (norm_nonneg n y) as Zy.
    (* 0 <= | |y| x - |x| y |^2 *)
    set (a := norm n x) in *. set (d := norm n y) in *.
    assert (Q : (0 <= a * d * (2 * (a * d) - 2 * Re (inner n x y)))%R).
    { set (w := map (fun i => (RtoC d * nth i x C0 + RtoC (- a) * nth i y C0)%C) (seq 0 n)).
      assert (E : forall i, i < n -> nth i w C0 = (RtoC d * nth i x C0 + RtoC (- a) * nth i y C0)%C) by (intros i Hi; unfold w; now rewrite nth_map_seq).
      pose proof (Re_inner_self n w) as W. rewrite (inner_comb_l n w _ _ _ _ _ E) in W.
      rewrite (inner_comb_r n x _ _ _ _ _ E), (inner_comb_r n y _ _ _ _ _ E), !Cconj_RtoC in W.
      rewrite !Re_plus, !Re_RtoC_mult, !Re_plus, !Re_RtoC_mult in W.
      assert (Re (inner n y x) = Re (inner n x y)) by (rewrite <- (inner_conj n x y); reflexivity).
      rewrite H, <- Nx, <- Ny in W. nra. }
    destruct (Rle_lt_dec (a * d) 0) as [L|L]; [|nra].
    (* one of the norms vanishes, so the product does *)
    assert (D : a = 0%R \/ d = 0%R) by nra.
    assert (Zr : forall u v, norm n u = 0%R -> inner n u v = C0).
    { intros u v Hu. unfold inner. rewrite (Csum_ext _ (fun _ => C0)); [apply Csum_zero|]. intros i Hi.
      assert (Z : Cnorm2 (nth i u C0) = 0%R).
      { apply Rle_antisym; [|apply Cnorm2_nonneg].
        assert (Rsum (fun i => Cnorm2 (nth i u C0)) (seq 0 n) = 0)%R.
        { pose proof (norm_sq n u) as S. rewrite Hu, inner_self, Re_RtoC in S. lra. }
        rewrite <- H. refine (Rsum_in_le (fun i => Cnorm2 (nth i u C0)) _ i _ Hi). intros; apply Cnorm2_nonneg. }
      assert (nth i u C0 = C0) as ->. { unfold Cnorm2 in Z. destruct (nth i u C0) as [p q]. cbn [fst snd] in Z. unfold C0. f_equal; nra. }
      csolve. }
    destruct D as [D|D].
    - rewrite (Zr x y D). unfold Re, C0. cbn [fst]. nra.
    - rewrite <- (inner_conj n y x), (Zr y x D). unfold Re, Cconj, C0. cbn [fst snd]. nra.
  Qed.

  Lemma error_bound b x y r : Im shift = 0%R -> (0 < Re shift)%R -> length b = n -> length x = n -> length y = n ->
    covariance_vector_product n shift J y = b -> residual_of n (covariance_vector_product n shift J) b x r ->
    (Re shift * norm n (csub y x) <= norm n r)%R.
  Proof.
    intros Hs P Lb Lx Ly Sy [Lr Hr]. set (d := csub y x).
    assert (Ld : length d = n) by (unfold d; rewrite csub_length; lia).
    assert (R : covariance_vector_product n shift J d = r).
    { apply cvec_ext; [rewrite product_length; lia|]. intros i Hi. rewrite product_length in Hi by assumption.
      rewrite (proj2 product_linear C1 (- C1)%C y x d); auto.
      - rewrite Sy, Hr by assumption. ring.
      - intros j Hj. unfold d. rewrite nth_csub by lia. ring. }
    pose proof (product_lower d Ld Hs) as Q. rewrite R in Q. pose proof (cauchy d r) as K. rewrite <- norm_sq in Q.
    pose proof (norm_nonneg n d). pose proof (norm_nonneg n r).
    destruct (Rle_lt_or_eq_dec _ _ H) as [H'|H']; [|rewrite <- H'; lra]. nra.
  Qed.

  Lemma solution_unique b x y : Im shift = 0%R -> (0 < Re shift)%R -> length x = n -> length y = n ->
    covariance_vector_product n shift J x = b -> covariance_vector_product n shift J y = b -> x = y.
  Proof.
    intros Hs P Lx Ly Ex Ey.
    assert (Lb : length b = n) by (rewrite <- Ex; now apply product_length).
    assert (R : residual_of n (covariance_vector_product n shift J) b x (zero n)).
    { split; [apply zero_length|]. intros i Hi. rewrite nth_zero, Ex. ring. }
    pose proof (error_bound b x y (zero n) Hs P Lb Lx Ly Ey R) as Q. rewrite norm_zero in Q.
    pose proof (norm_nonneg n (csub y x)). assert (norm n (csub y x) = 0%R) by nra.
    assert (Z : csub y x = zero n).
    { apply norm_zero_inv; [rewrite csub_length; lia|exact H0]. }
    apply cvec_ext; [lia|]. intros i Hi. assert (E := f_equal (fun v => nth i v C0) Z). cbv beta in E.
    rewrite nth_csub, nth_zero in E by lia. transitivity (nth i y C0 - (nth i y C0 - nth i x C0))%C; [ring|]. rewrite E. ring.
  Qed.
End Matrix.


(** * The centred jacobian and the product from derivatives *)

Section Centred.
  Context (n : nat) (O : list (list C)) (FO : Forall (fun row => length row = n) O) (HB : 0 < length O).
  Let B := length O.
  Let e i k := nth k (nth i O []) C0.
  Let c := Cinv (RtoC (INR B)).
  Let J := jacobian_minus_mean n O.
  Let mean k := (Csum (fun i => e i k) (seq 0 B) * c)%C.

  Lemma mean_length : length (mean_grad n O) = n.
  Proof. unfold mean_grad, range. now rewrite map_length, seq_length. Qed.
  Lemma nth_mean k : k < n -> nth k (mean_grad n O) C0 = mean k.
  Proof.
    intros H. unfold mean_grad, range. rewrite nth_map_seq by assumption. unfold Cdiv, mean. fold B. fold c. f_equal.
    rewrite <- (map_nth_range O []) at 1. rewrite Csum_map. reflexivity.
  Qed.
  Lemma J_length : length J = B.
  Proof. apply map_length. Qed.
  Lemma J_rows : Forall (fun row => length row = n) J.
  Proof.
    apply Forall_forall. intros row H. apply in_map_iff in H. destruct H as (r & <- & H). rewrite Forall_forall in FO. specialize (FO r H).
    rewrite csub_length; [exact FO|]. now rewrite mean_length.
  Qed.
  Lemma nth_J i k : i < B -> k < n -> nth k (nth i J []) C0 = (e i k - mean k)%C.
  Proof.
    intros Hi Hk. unfold J, jacobian_minus_mean. rewrite (nth_map_lt _ _ _ []) by assumption.
    rewrite nth_csub, nth_mean by (auto; rewrite mean_length; now apply (row_length n O FO)). reflexivity.
  Qed.
  Lemma B_c : (RtoC (INR B) * c)%C = C1.
  Proof. unfold c. apply Cmult_inv_r. intros E. apply (f_equal Re) in E. unfold Re, RtoC, C0 in E. cbn [fst] in E. apply not_0_INR in E; [exact E|]. lia. Qed.
  Lemma Csum_const (z : C) l : Csum (fun _ : nat => z) l = (RtoC (INR (length l)) * z)%C.
  Proof.
    induction l as [|a l IH]; [cbn; csolve|]. rewrite Csum_cons, IH. cbn [length]. rewrite S_INR, RtoC_plus.
    change (RtoC 1) with C1. ring.
  Qed.
  Lemma J_centred k : k < n -> Csum (fun i => nth k (nth i J []) C0) (seq 0 B) = C0.
  Proof.
    intros Hk. rewrite (Csum_ext _ (fun i => (e i k - mean k)%C)) by (intros i Hi; apply in_seq in Hi; apply nth_J; lia).
    rewrite Csum_minus, Csum_const, seq_length. unfold mean.
    replace (RtoC (INR B) * (Csum (fun i => e i k) (seq 0 B) * c))%C with (RtoC (INR B) * c * Csum (fun i => e i k) (seq 0 B))%C by ring.
    rewrite B_c. ring.
  Qed.

  Lemma via_jvp shift v : length v = n -> product_via_jvp n shift O v = covariance_vector_product n shift J v.
  Proof.
    intros L. set (rem := Csum (fun z => z) (map2 Cmult v (mean_grad n O))).
    assert (Rem : rem = Csum (fun k => (mean k * nth k v C0)%C) (seq 0 n)).
    { unfold rem. rewrite (map2_seq _ C0 C0) by (rewrite mean_length; lia). rewrite Csum_map, L. apply Csum_ext. intros k Hk. apply in_seq in Hk.
      rewrite nth_mean by lia. ring. }
    assert (Lm : length (map (fun z => (z - rem)%C) (matvec O v)) = B) by (rewrite map_length; apply matvec_length).
    assert (La : length (adjoint_matvec n O (map (fun z => (z - rem)%C) (matvec O v))) = n) by apply adjoint_length.
    assert (Jl : length J = length O) by apply J_length.
    apply cvec_ext.
    - rewrite (product_length n J shift v L). unfold product_via_jvp. fold rem. rewrite cadd_length; rewrite ?map_length; lia.
    - intros k Hk. unfold product_via_jvp in Hk |- *. fold rem in Hk |- *. rewrite cadd_length in Hk by (rewrite !map_length; lia).
      rewrite map_length, La in Hk.
      rewrite nth_cadd by (rewrite !map_length; lia). rewrite !(nth_map_lt _ _ _ C0) by lia.
      rewrite (nth_product n J J_rows shift v k L Hk). rewrite Jl. f_equal; [|ring]. unfold Cdiv. f_equal.
      rewrite (nth_adjoint n O _ k Lm Hk). fold B.
      (* both sums differ by the mean of the centred vector *)
      set (w := fun i => Csum (fun l => (nth l (nth i J []) C0 * nth l v C0)%C) (seq 0 n)).
      assert (W : forall i, i < B -> nth i (map (fun z => (z - rem)%C) (matvec O v)) C0 = w i).
      { intros i Hi. rewrite (nth_map_lt _ _ _ C0) by (rewrite matvec_length; exact Hi). rewrite (nth_matvec n O FO v i L Hi), Rem.
        unfold w. rewrite <- Csum_minus. apply Csum_ext. intros l Hl. apply in_seq in Hl. rewrite nth_J by lia. unfold e. ring. }
      assert (SW : Csum w (seq 0 B) = C0).
      { unfold w. rewrite Csum_exchange. rewrite (Csum_ext _ (fun _ => C0)); [apply Csum_zero|]. intros l Hl. apply in_seq in Hl.
        rewrite Csum_scal_r, J_centred by lia. csolve. }
      rewrite (Csum_ext _ (fun i => (Cconj (e i k) * w i)%C)) by (intros i Hi; apply in_seq in Hi; rewrite W by lia; reflexivity).
      rewrite (Csum_ext (fun i => (Cconj (nth k (nth i J []) C0) * Csum (fun l => (nth l (nth i J []) C0 * nth l v C0)%C) (seq 0 n))%C)
        (fun i => (Cconj (e i k) * w i - Cconj (mean k) * w i)%C)).
      + rewrite Csum_minus, Csum_scal, SW. csolve.
      + intros i Hi. apply in_seq in Hi. rewrite (nth_J i k) by lia. rewrite Cconj_minus. fold (w i). ring.
  Qed.

  Lemma energy_grad_entry targets k : length targets = B -> k < n ->
    nth k (energy_grad n O targets) C0 = Csum (fun i => (Cconj (e i k - mean k) * Cconj (nth i targets C0))%C) (seq 0 B).
  Proof.
    intros L H. unfold energy_grad. fold J. rewrite nth_adjoint by (auto; rewrite map_length, J_length; exact L). rewrite J_length.
    apply Csum_ext. intros i Hi. apply in_seq in Hi. rewrite nth_J by lia.
    rewrite (nth_map_lt _ _ _ C0) by lia. reflexivity.
  Qed.
End Centred.

(** * The optimizer *)

Lemma slice_length_le {A} (l : list A) a b : length (slice l a b) = Nat.min (b - a) (length l - a).
Proof. unfold slice. rewrite firstn_length, skipn_length. lia. Qed.

Fixpoint cut {A} (t : list (list nat)) (rest : list A) : res (list (list nat * list A)) :=
  match t with
  | [] => Ok []
  | s :: t' => if size_of s <=? length rest
               then do r <- cut t' (skipn (size_of s) rest) ; Ok ((s, firstn (size_of s) rest) :: r) else Err ValueError
  end.
Lemma c2t_from {A} templates : forall offset (col : list A),
  column_to_tensors_from offset templates col = cut templates (skipn offset col).
Proof.
  induction templates as [|s t IH]; intros offset col; [reflexivity|]. cbn [column_to_tensors_from cut].
  assert (E : slice col offset (offset + size_of s) = firstn (size_of s) (skipn offset col)).
  { unfold slice. f_equal. lia. }
  rewrite E, IH. rewrite firstn_length.
  replace (skipn (offset + size_of s) col) with (skipn (size_of s) (skipn offset col)).
  - destruct (Nat.leb_spec (size_of s) (length (skipn offset col))) as [H|H].
    + rewrite (proj2 (Nat.eqb_eq _ _)) by lia. reflexivity.
    + rewrite (proj2 (Nat.eqb_neq _ _)) by lia. reflexivity.
  - clear. revert offset. induction col as [|a col IHc]; intros [|offset]; cbn [skipn Nat.add]; auto; try (destruct (size_of s); reflexivity).
Qed.

Lemma c2t_cut {A} templates (col : list A) : column_to_tensors templates col = cut templates col.
Proof. unfold column_to_tensors. rewrite c2t_from. reflexivity. Qed.

Definition total (templates : list (list nat)) : nat := fold_right (fun s k => size_of s + k) 0 templates.

Lemma cut_ok {A} templates : forall col : list A, total templates <= length col ->
  exists ts, cut templates col = Ok ts /\ map fst ts = templates /\ Forall (fun t => length (snd t) = size_of (fst t)) ts /\
    concat (map snd ts) = firstn (total templates) col.
Proof.
  induction templates as [|s t IH]; intros col H; cbn [total fold_right cut] in *.
  - exists []. repeat split; auto.
  - fold (total t) in *. rewrite (proj2 (Nat.leb_le _ _)) by lia.
    destruct (IH (skipn (size_of s) col)) as (ts & E & F & L & Q); [rewrite skipn_length; lia|].
    rewrite E. cbn [bind]. exists ((s, firstn (size_of s) col) :: ts). split; [reflexivity|].
    split; [cbn; now rewrite F|]. split; [constructor; [cbn [snd fst]; rewrite firstn_length; lia|exact L]|].
    cbn [map snd concat]. rewrite Q. 
    rewrite <- (firstn_skipn (size_of s) col) at 3. rewrite firstn_app. rewrite firstn_length_le by lia.
    replace (size_of s + total t - size_of s) with (total t) by lia. f_equal. symmetry. apply firstn_all2. rewrite firstn_length. lia.
Qed.
Lemma cut_short {A} templates : forall col : list A, length col < total templates -> cut templates col = Err ValueError.
Proof.
  induction templates as [|s t IH]; intros col H; cbn [total fold_right cut] in *; [lia|]. fold (total t) in *.
  destruct (Nat.leb_spec (size_of s) (length col)); [|reflexivity].
  rewrite IH; [reflexivity|]. rewrite skipn_length. lia.
Qed.
Lemma cut_back {A} (ts : list (list nat * list A)) : Forall (fun t => length (snd t) = size_of (fst t)) ts ->
  forall tail, cut (map fst ts) (concat (map snd ts) ++ tail) = Ok ts.
Proof.
  induction 1 as [|[s l] ts L F IH]; intros tail; [reflexivity|]. cbn [map fst snd concat cut] in *. rewrite <- app_assoc.
  rewrite <- L. rewrite (proj2 (Nat.leb_le _ _)) by (rewrite app_length; lia).
  rewrite skipn_app, skipn_all, Nat.sub_diag. cbn [app skipn]. rewrite IH. cbn [bind].
  rewrite firstn_app, firstn_all, Nat.sub_diag. cbn [firstn]. now rewrite app_nil_r.
Qed.
Lemma concat_total {A} (ts : list (list nat * list A)) : Forall (fun t => length (snd t) = size_of (fst t)) ts ->
  length (concat (map snd ts)) = total (map fst ts).
Proof.
  induction 1 as [|[s l] ts L F IH]; [reflexivity|]. cbn [map fst snd concat total fold_right] in *. rewrite app_length, L.
  unfold total in IH. now rewrite IH.
Qed.

(** The complex weights a layer reads, in the order of the column. *)
Definition complex_column (reals imags : list (list nat * list R)) : list C :=
  concat (map2 (fun r i => complex_weight_value (snd r, snd i)) reals imags).

Lemma concat_pairs (rs is : list (list nat * list R)) :
  Forall2 (fun r i : list nat * list R => length (snd r) = length (snd i)) rs is ->
  complex_column rs is = map2 (fun re im => (re, im * -1)%R) (concat (map snd rs)) (concat (map snd is)).
Proof.
  unfold complex_column.
  induction 1 as [|[s l] [s' l'] rs is L F IH]; [reflexivity|]. cbn [map2 map snd concat] in *. rewrite IH. clear IH F.
  unfold complex_weight_value. cbn [fst snd].
  revert l' L. induction l as [|a l IH]; intros [|b l'] L; try discriminate; cbn [map2 map app]; [reflexivity|].
  cbn [length] in L. cbn [map app map2]. f_equal. apply IH. now injection L.
Qed.

Lemma update_parts lr (ps gs : list (list nat * list R)) :
  Forall2 (fun p g : list nat * list R => length (snd p) = length (snd g)) ps gs ->
  map fst (map2 (apply_update lr) ps gs) = map fst ps /\
  concat (map snd (map2 (apply_update lr) ps gs)) = map2 (fun a b => (a + lr * b)%R) (concat (map snd ps)) (concat (map snd gs)).
Proof.
  induction 1 as [|[s l] [s' l'] ps gs L F [I1 I2]]; [split; reflexivity|]. cbn [map2 map fst snd concat apply_update] in *. split; [now f_equal|].
  rewrite I2. clear -L. revert l' L. induction l as [|a l IH]; intros [|b l'] L; try discriminate; cbn [map2 app]; [reflexivity|].
  f_equal. apply IH. now injection L.
Qed.

Lemma Forall2_shapes {A B} (ps : list (list nat * list A)) (gs : list (list nat * list B)) : map fst ps = map fst gs ->
  Forall (fun t => length (snd t) = size_of (fst t)) ps -> Forall (fun t => length (snd t) = size_of (fst t)) gs ->
  Forall2 (fun p g => length (snd p) = length (snd g)) ps gs.
Proof.
  revert gs. induction ps as [|[s l] ps IH]; intros [|[s' l'] gs] E F G; try discriminate; constructor.
  - inversion F; inversion G; subst. cbn in *. injection E as E _. subst. lia.
  - inversion F; inversion G; subst. apply IH; auto. now injection E.
Qed.

Lemma apply_gradient lr reals imags col : map fst reals = map fst imags ->
  Forall (fun t => length (snd t) = size_of (fst t)) reals -> Forall (fun t => length (snd t) = size_of (fst t)) imags ->
  length col = total (map fst reals) ->
  exists reals' imags', apply_complex_gradient lr reals imags col = Ok (reals', imags') /\
    map fst reals' = map fst reals /\ map fst imags' = map fst imags /\
    complex_column reals' imags' = cadd (complex_column reals imags) (cscale (RtoC lr) col).
Proof.
  intros Sh Fr Fi L. unfold apply_complex_gradient. rewrite !c2t_cut.
  destruct (cut_ok (map fst reals) (map Re (map Cconj col))) as (rg & Er & Sr & Fg & Cr); [rewrite !map_length; lia|].
  destruct (cut_ok (map fst imags) (map Im (map Cconj col))) as (ig & Ei & Si & Gg & Ci); [rewrite !map_length, <- Sh; lia|].
  cbv zeta. rewrite Er. cbn [bind]. rewrite Ei. cbn [bind].
  assert (F2r := Forall2_shapes reals rg (eq_sym Sr) Fr Fg). assert (F2i := Forall2_shapes imags ig (eq_sym Si) Fi Gg).
  assert (Lr : length reals = length rg) by (rewrite <- (map_length fst reals), <- (map_length fst rg); now rewrite Sr).
  assert (Li : length imags = length ig) by (rewrite <- (map_length fst imags), <- (map_length fst ig); now rewrite Si).
  assert (U : map2 (apply_update lr) (reals ++ imags) (rg ++ ig) = map2 (apply_update lr) reals rg ++ map2 (apply_update lr) imags ig).
  { clear -Lr. revert rg Lr. induction reals as [|a l IH]; intros [|b l'] L; try discriminate; [reflexivity|]. cbn. f_equal. apply IH. now injection L. }
  rewrite U. assert (Lu : length reals = length (map2 (apply_update lr) reals rg)) by (rewrite Base.map2_length; lia).
  rewrite firstn_app, skipn_app. rewrite !Lu. rewrite !Nat.sub_diag, firstn_all, skipn_all. cbn [firstn skipn app]. rewrite app_nil_r.
  eexists _, _. split; [reflexivity|].
  destruct (update_parts lr reals rg F2r) as [A1 A2]. destruct (update_parts lr imags ig F2i) as [B1 B2].
  split; [exact A1|]. split; [exact B1|].
  assert (Fr' : Forall (fun t => length (snd t) = size_of (fst t)) (map2 (apply_update lr) reals rg)).
  { clear -F2r Fr. induction F2r as [|[s l] [s' l'] ps gs L F IH]; [constructor|]. inversion Fr; subst. cbn [map2]. constructor; [|now apply IH].
    unfold apply_update. cbn [fst snd] in *. rewrite Base.map2_length. lia. }
  assert (Fi' : Forall (fun t => length (snd t) = size_of (fst t)) (map2 (apply_update lr) imags ig)).
  { clear -F2i Fi. induction F2i as [|[s l] [s' l'] ps gs L F IH]; [constructor|]. inversion Fi; subst. cbn [map2]. constructor; [|now apply IH].
    unfold apply_update. cbn [fst snd] in *. rewrite Base.map2_length. lia. }
  rewrite !concat_pairs.
  2:{ now apply Forall2_shapes. }
  2:{ apply Forall2_shapes; auto. now rewrite A1, B1. }
  rewrite A2, B2, Cr, Ci. rewrite !firstn_all2 by (rewrite !map_length, <- ?Sh; lia).
  pose proof (concat_total reals Fr) as Tr. pose proof (concat_total imags Fi) as Ti. rewrite <- Sh in Ti. rewrite <- L in Tr, Ti.
  revert Tr Ti. generalize (concat (map snd reals)), (concat (map snd imags)). clear. intros a b. revert a b. unfold cadd, cscale.
  induction col as [|z col IH]; intros [|x a] [|y b] Ha Hb; try discriminate; [reflexivity|].
  cbn [map map2]. apply f_equal2; [|apply IH; cbn in *; lia].
  apply C_eq; unfold Re, Im, Cplus, Cmult, RtoC, Cconj; cbn [fst snd]; ring.
Qed.

Lemma model_weights part layers :
  get_model_weights part layers =
  if forallb (fun l => (params l =? 0) || match complex_weights l with Some _ => true | None => false end) layers
  then Ok (flat_map (fun l => if params l =? 0 then [] else match complex_weights l with Some w => part w | None => [] end) layers)
  else Err AttributeError.
Proof.
  induction layers as [|l t IH]; [reflexivity|]. cbn [get_model_weights forallb flat_map]. rewrite IH.
  destruct (params l) as [|p]; cbn [Nat.eqb orb andb Nat.ltb Nat.leb app].
  - reflexivity.
  - destruct (complex_weights l); cbn [orb andb]; [|reflexivity]. destruct (forallb _ t); reflexivity.
Qed.

Lemma descent n J shift b x : Forall (fun row => length row = n) J -> 0 < length J -> Im shift = 0%R -> length x = n ->
  covariance_vector_product n shift J x = b -> (Re shift * (norm n x * norm n x) <= Re (inner n b x))%R.
Proof.
  intros F HB Hs L E. pose proof (product_lower n J F shift HB x L Hs) as H. rewrite E in H. rewrite norm_sq.
  replace (Re (inner n b x)) with (Re (inner n x b)); [exact H|].
  rewrite <- (inner_conj n x b). reflexivity.
Qed.

(** * Statements in the vocabulary of the specification *)

Lemma residual_norm n A b x r r' : residual_of n A b x r -> residual_of n A b x r' -> norm n r = norm n r'.
Proof.
  intros [_ H] [_ H']. unfold norm. f_equal. apply Rsum_ext. intros i Hi. apply in_seq in Hi. rewrite H, H' by lia. reflexivity.
Qed.

Lemma cg_report_spec n A M b x0 : linear_map n A -> (forall m, M = Some m -> forall v, length v = n -> length (m v) = n) -> length b = n ->
  (forall x, x0 = Some x -> length x = n) -> forall max_iter fuel tol s r0,
  residual_of n A b (match x0 with None => zero n | Some x => x end) r0 ->
  conjugate_gradient A M max_iter fuel b x0 tol = Some s ->
  length (cg_x s) = n /\ residual_of n A b (cg_x s) (cg_r s) /\ (forall m, max_iter = Some m -> cg_i s <= m) /\
  ((forall m, max_iter = Some m -> cg_i s < m) -> (norm n (cg_r s) <= tol * norm n r0)%R).
Proof.
  intros LA LM Lb Lx max_iter fuel tol s r0 R0 H.
  destruct (cg_report n A M b x0 LA LM Lb Lx max_iter fuel tol s H) as ((L & _ & R) & I & T).
  split; [exact L|]. split; [exact R|]. split; [exact I|]. intros F. specialize (T F).
  destruct (start_good n A M b x0 LA LM Lb Lx) as (_ & _ & S0).
  rewrite (residual_norm n A b _ r0 (cg_r (cg_start A M b x0)) R0); [exact T|]. unfold cg_start in S0 at 1. cbn [cg_x] in S0. rewrite Lb in S0. exact S0.
Qed.

Lemma cg_converges_spec n A M b x0 : linear_map n A -> self_adjoint n A -> positive_definite n A ->
  (forall m, M = Some m -> (forall v, length v = n -> length (m v) = n) /\ self_adjoint n m /\ positive_definite n m) -> length b = n ->
  (forall x, x0 = Some x -> length x = n) -> forall max_iter fuel tol r0, (0 <= tol)%R -> n < fuel -> (forall m, max_iter = Some m -> n <= m) ->
  residual_of n A b (match x0 with None => zero n | Some x => x end) r0 ->
  exists s, conjugate_gradient A M max_iter fuel b x0 tol = Some s /\ cg_i s <= n /\ (norm n (cg_r s) <= tol * norm n r0)%R.
Proof.
  intros LA HA PA HM Lb Lx max_iter fuel tol r0 Ht Hf Hm R0.
  destruct (cg_converges n A M b x0 LA HA PA (fun m E => proj1 (HM m E)) (fun m E => proj2 (HM m E)) Lb Lx max_iter fuel tol Ht Hf Hm) as (s & E & I & T).
  exists s. split; [exact E|]. split; [exact I|].
  destruct (start_good n A M b x0 LA (fun m E => proj1 (HM m E)) Lb Lx) as (_ & _ & S0).
  rewrite (residual_norm n A b _ r0 (cg_r (cg_start A M b x0)) R0); [exact T|]. unfold cg_start in S0 at 1. cbn [cg_x] in S0. rewrite Lb in S0. exact S0.
Qed.

Section Covariances.
  Context (n : nat) (O : list (list C)) (FO : Forall (fun row => length row = n) O) (HB : 0 < length O).
  Let B := length O.
  Let e i k := nth k (nth i O []) C0.

  Lemma matrix_covariance shift k l : k < n -> l < n ->
    nth l (nth k (s_matrix n shift (jacobian_minus_mean n O)) []) C0 =
    (covariance B (fun i => e i k) (fun i => e i l) + (if k =? l then shift else C0))%C.
  Proof.
    intros Hk Hl. rewrite s_matrix_entry by assumption. rewrite (J_length n O). unfold covariance, average, Cdiv. fold B. f_equal.
    - f_equal. apply Csum_ext. intros i Hi. apply in_seq in Hi. rewrite !(nth_J n O FO) by (fold B; lia). reflexivity.
    - destruct (k =? l); csolve.
  Qed.

  Lemma gradient_covariance local k : length local = B -> k < n ->
    nth k (energy_grad n O (loss_coefficients B (Cmean local) local)) C0 = covariance B (fun i => e i k) (fun i => nth i local C0).
  Proof.
    intros L Hk.
    assert (Ll : length (loss_coefficients B (Cmean local) local) = B) by (unfold loss_coefficients; now rewrite map_length).
    rewrite (energy_grad_entry n O FO) by (assumption || exact Ll). fold B.
    assert (M : Cmean local = average B (fun i => nth i local C0)).
    { unfold Cmean, average. rewrite L, Cdiv_RtoC.
      - f_equal. rewrite <- (map_nth_range local C0) at 1. rewrite Csum_map, L. reflexivity.
      - apply not_0_INR. fold B in HB. lia. }
    unfold covariance, average at 1. rewrite Cdiv_RtoC by (apply not_0_INR; fold B in HB; lia).
    rewrite Cscale_RtoC, <- Csum_scal.
    apply Csum_ext. intros i Hi. apply in_seq in Hi.
    unfold loss_coefficients. rewrite (nth_map_lt _ _ _ C0) by lia. rewrite M.
    set (a := average B (fun i => nth i local C0)). clearbody a. unfold average, Cdiv. unfold e.
    set (u := (Cconj (nth k (nth i O []) C0 - _))%C). set (w := nth i local C0). clearbody u w. csolve.
  Qed.
End Covariances.

(** * Directions for the forward mode product *)

Definition doubled (shapes : list (list nat)) : list (list nat) := flat_map (fun s => [s; s]) shapes.
Lemma pair_back (v : list C) : map2 (fun a b => (a, b)) (map Re v) (map Im v) = v.
Proof. induction v as [|[a b] v IH]; [reflexivity|]. cbn [map map2 Re Im fst snd]. now rewrite IH. Qed.
Lemma direction_cut shapes : forall v : list C, length v = total shapes ->
  exists r i ts, cut shapes (map Re v) = Ok r /\ cut shapes (map Im v) = Ok i /\
    cut (doubled shapes) (concat (map2 (fun a b => snd a ++ snd b) r i)) = Ok ts /\ map fst ts = doubled shapes /\ concat (to_complex_tensors (map snd ts)) = v.
Proof.
  induction shapes as [|s shapes IH]; intros v L.
  - exists [], [], []. destruct v; [|discriminate]. repeat split.
  - cbn [total fold_right] in L. fold (total shapes) in L. destruct (IH (skipn (size_of s) v)) as (r & i & ts & E1 & E2 & E3 & E4 & E5); [rewrite skipn_length; lia|].
    assert (F : length (firstn (size_of s) v) = size_of s) by (rewrite firstn_length; lia).
    exists ((s, map Re (firstn (size_of s) v)) :: r), ((s, map Im (firstn (size_of s) v)) :: i),
      ((s, map Re (firstn (size_of s) v)) :: (s, map Im (firstn (size_of s) v)) :: ts).
    assert (Q : forall f : C -> R, firstn (size_of s) (map f v) = map f (firstn (size_of s) v)) by (intros f; apply firstn_map).
    assert (Q' : forall f : C -> R, skipn (size_of s) (map f v) = map f (skipn (size_of s) v)) by (intros f; apply skipn_map).
    split; [cbn [cut]; rewrite (proj2 (Nat.leb_le _ _)) by (rewrite map_length; lia); rewrite Q, Q', E1; reflexivity|].
    split; [cbn [cut]; rewrite (proj2 (Nat.leb_le _ _)) by (rewrite map_length; lia); rewrite Q, Q', E2; reflexivity|].
    split; [|split; [cbn [map fst]; rewrite E4; reflexivity|]].
    + cbn [map2 concat snd doubled flat_map app cut]. fold (doubled shapes).
      set (a := map Re (firstn (size_of s) v)). set (b := map Im (firstn (size_of s) v)).
      assert (La : length a = size_of s) by (unfold a; now rewrite map_length). assert (Lb : length b = size_of s) by (unfold b; now rewrite map_length).
      rewrite <- !app_assoc. rewrite (proj2 (Nat.leb_le _ _)) by (rewrite app_length; lia).
      rewrite firstn_app, skipn_app, La, Nat.sub_diag. cbn [firstn skipn].
      rewrite (firstn_all2 a) by lia. rewrite (skipn_all2 a) by lia. rewrite app_nil_r. cbn [app].
      rewrite (proj2 (Nat.leb_le _ _)) by (rewrite app_length; lia).
      rewrite firstn_app, skipn_app, Lb, Nat.sub_diag. cbn [firstn skipn]. rewrite (firstn_all2 b) by lia. rewrite (skipn_all2 b) by lia.
      rewrite app_nil_r. cbn [app]. rewrite E3. reflexivity.
    + cbn [map snd to_complex_tensors concat]. rewrite E5, pair_back. apply firstn_skipn.
Qed.
Lemma direction shapes (v : list C) : length v = total shapes ->
  exists col ts, from_complex_vector_to_tensors shapes v = Ok col /\ column_to_tensors (doubled shapes) col = Ok ts /\ map fst ts = doubled shapes /\
    concat (to_complex_tensors (map snd ts)) = v.
Proof.
  intros L. destruct (direction_cut shapes v L) as (r & i & ts & E1 & E2 & E3 & E4 & E5). exists (concat (map2 (fun a b => snd a ++ snd b) r i)), ts.
  unfold from_complex_vector_to_tensors. rewrite !c2t_cut, E1, E2. repeat split; assumption.
Qed.
