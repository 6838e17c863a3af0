(** Lemmas for C83: values and gradients of the restricted Boltzmann machines. *)
From Coq Require Import List ZArith Arith Reals Bool Lia Lra Permutation.
From Verif Require Import Base OrderingModel OrderingSpec OrderingProofs TopologyProofs Cplx IsingModel IsingProofs ObservableModel AutoregressiveSpec ExactSpec ExactGradientProofs ComplexModel ComplexSpec ComplexProofs MachinesModel MachinesSpec MachinesProofs
  SymmetryModel SymmetrySpec SymmetryProofs SymmetryEnsembleProofs RbmProofs GradientModel GradientProofs ReconfigurationModel ReconfigurationProofs SolverModel SolverSpec SolverProofs RbmModel RbmSpec RbmCalculusProofs.
Import ListNotations.
Local Open Scope nat_scope.

(** * Back propagation through lncosh *)
Lemma lncosh_gradient_tanh z g : Ccosh z <> C0 -> lncosh_gradient z g = (g * Cconj (complex_tanh z))%C.
Proof.
  intros N. apply cosh_twice in N. unfold lncosh_gradient. set (a := Rabs (Re z)). set (e1 := Cexp (z - RtoC a)). set (e2 := Cexp (- z - RtoC a)).
  assert (F : forall u, Cexp (u - RtoC a) = (RtoC (exp (- a)) * Cexp u)%C).
  { intros u. replace (u - RtoC a)%C with (RtoC (- a) + u)%C by (unfold RtoC; apply C_eq; unfold Cplus, Cminus, Copp, Re, Im; cbn [fst snd]; ring). rewrite Cexp_plus, Cexp_RtoC. reflexivity. }
  assert (P := exp_pos (- a)).
  assert (W : (e1 + e2)%C = (RtoC (exp (- a)) * twice_cosh z)%C) by (unfold e1, e2; rewrite !F; unfold twice_cosh; ring).
  assert (NW : (e1 + e2)%C <> C0).
  { rewrite W. intros E. apply N. transitivity (RtoC (/ exp (- a)) * (RtoC (exp (- a)) * twice_cosh z))%C; [|rewrite E; ring].
    transitivity (RtoC (/ exp (- a) * exp (- a)) * twice_cosh z)%C; [rewrite Rinv_l by lra; change (RtoC 1) with C1; ring|rewrite RtoC_mult; ring]. }
  set (w := (e1 + e2)%C) in *. pose proof (Cnorm2_pos _ NW) as Q.
  assert (GW : (Cscale (Re g / Cmod w / Cmod w) w + (- (Im g * Im w) / Cnorm2 w, Im g * Re w / Cnorm2 w)%R)%C = (g * Cconj (Cinv w))%C).
  { assert (M : (Cmod w * Cmod w = Cnorm2 w)%R) by (unfold Cmod; apply sqrt_sqrt; lra). assert (MP : (0 < Cmod w)%R) by (unfold Cmod; apply sqrt_lt_R0, Q).
    replace (Re g / Cmod w / Cmod w)%R with (Re g / Cnorm2 w)%R by (rewrite <- M; field; lra). unfold Cscale, Cmult, Cplus, Cconj, Cinv. cbn [fst snd]. fold (Cnorm2 w). unfold Re, Im in *. f_equal; field; lra. }
  rewrite GW. set (gw := (g * Cconj (Cinv w))%C).
  assert (Z : (g - gw * Cconj e1 - gw * Cconj e2)%C = C0).
  { transitivity (g - g * (Cconj (Cinv w) * (Cconj e1 + Cconj e2)))%C; [unfold gw; ring|]. replace (Cconj e1 + Cconj e2)%C with (Cconj w) by (unfold w; apply Cconj_plus).
    rewrite <- Cconj_mult. replace (Cinv w * w)%C with (w * Cinv w)%C by ring. rewrite Cmult_inv_r by exact NW. unfold Cconj, C1, Re, Im. cbn [fst snd]. rewrite Ropp_0. change (1, 0)%R with C1. ring. }
  rewrite Z. replace (Re C0 * real_sign (Re z))%R with 0%R by (unfold C0, Re; cbn [fst]; ring). change (RtoC 0) with C0.
  transitivity (g * Cconj ((e1 - e2) * Cinv w))%C; [unfold gw; rewrite Cconj_mult, Cconj_minus; ring|]. f_equal. f_equal. unfold complex_tanh, Cdiv.
  assert (E12 : (e1 - e2)%C = (RtoC (exp (- a)) * (Cexp z - Cexp (- z)))%C) by (unfold e1, e2; rewrite !F; ring). rewrite E12, W.
  transitivity (RtoC (exp (- a)) * (Cexp z - Cexp (- z)) * Cinv (RtoC (exp (- a)) * twice_cosh z) * (twice_cosh z * Cinv (twice_cosh z)))%C; [rewrite Cmult_inv_r by exact N; ring|].
  transitivity (((RtoC (exp (- a)) * twice_cosh z) * Cinv (RtoC (exp (- a)) * twice_cosh z)) * ((Cexp z - Cexp (- z)) * Cinv (twice_cosh z)))%C; [ring|].
  rewrite Cmult_inv_r by (rewrite <- W; exact NW). ring.
Qed.

(** * Values *)
Lemma spin_nth s i : nth i (to_complex s) C0 = spin s i. Proof. apply to_complex_nth. Qed.
Lemma spin_real s i : Cconj (spin s i) = spin s i. Proof. unfold spin, Cconj, RtoC, Re, Im. cbn [fst snd]. f_equal. ring. Qed.
Lemma Csum_spins s n : length s = n -> Csum (fun v => RtoC (IZR v)) s = Csum (spin s) (seq 0 n).
Proof.
  intros L. transitivity (Csum (fun z => RtoC (IZR z)) (map (fun i => nth i s 0%Z) (seq 0 n))); [|rewrite Csum_map; reflexivity].
  f_equal. apply (list_ext_nth 0%Z); [rewrite map_length, seq_length; exact L|]. intros i I. rewrite (nth_map_seq (fun i => nth i s 0%Z)) by lia. reflexivity.
Qed.

Lemma fits_parts m ws : fits m ws -> exists k b v, ws = [k; b; v] /\
  length k = (if symmetric m then volume (input_dims m) * alpha m else volume (input_dims m) * (alpha m * volume (input_dims m))) /\
  length b = (if symmetric m then alpha m else alpha m * volume (input_dims m)) /\ length v = (if symmetric m then 1 else volume (input_dims m)).
Proof.
  unfold fits. intros F. destruct ws as [|k [|b [|v [|]]]]; destruct (symmetric m); cbn [map] in F; try discriminate; injection F as F1 F2 F3; exists k, b, v; repeat split; assumption.
Qed.

Lemma prediction_formula m ws s : fits m ws -> 0 < volume (input_dims m) -> length s = volume (input_dims m) ->
  prediction m ws s = (visible m ws s + Csum lncosh (hidden m ws s))%C.
Proof.
  intros F V L. destruct (fits_parts m ws F) as (k & b & v & -> & Lk & Lb & Lv). unfold prediction, visible, hidden. cbn [nth]. destruct (symmetric m).
  - destruct v as [|a [|]]; try discriminate. rewrite rbm_sym_formula by assumption. f_equal.
    + cbn [nth]. rewrite (Csum_spins s _ L), <- Csum_scal. apply Csum_ext. intros i _. ring.
    + rewrite Csum_flat_map. apply Csum_ext. intros u _. rewrite Csum_map. reflexivity.
  - rewrite rbm_formula by (rewrite L; exact Lb). rewrite L. f_equal. rewrite Csum_map. reflexivity.
Qed.

Lemma thetas_plain n al k b s : length s = n -> length b = al * n ->
  dense_call (al * length (to_complex s)) k (Some b) None (to_complex s) =
  map (fun j => (nth j b C0 + Csum (fun v => spin s v * nth (v * (al * n) + j)%nat k C0) (seq 0 n))%C) (seq 0 (al * n)).
Proof.
  intros L Lb. unfold dense_call. assert (LT : length (to_complex s) = n) by (unfold to_complex; rewrite map_length; exact L). rewrite LT.
  apply (list_ext_nth C0); [rewrite Base.map2_length, dot_row_length, map_length, seq_length; lia|]. intros j J. rewrite Base.map2_length, dot_row_length in J.
  rewrite (nth_error_map2' _ _ _ C0 C0) by (rewrite ?dot_row_length; lia). rewrite (nth_map_seq (fun j => (nth j b C0 + _)%C)) by lia.
  unfold dot_row, range. rewrite nth_map_seq by lia. rewrite LT. match goal with |- (?a + ?c)%C = _ => replace (a + c)%C with (c + a)%C by ring end. f_equal. apply Csum_ext. intros v _. now rewrite spin_nth.
Qed.

Lemma thetas_sym sh al k b s : 0 < volume sh -> length s = volume sh -> length b = al ->
  translation_dense_call sh al k (Some b) None (to_complex s) =
  flat_map (fun u => map (fun t => (nth u b C0 + Csum (fun l => spin s (row_major sh (shifted sh t l)) * nth (row_major sh l * al + u)%nat k C0) (raster sh))%C) (raster sh)) (seq 0 al).
Proof.
  intros V L Lb.
  assert (E : translation_dense_call sh al k (Some b) None (to_complex s) = translation_dense_call sh al k (Some b) (Some (fun z => z)) (to_complex s)).
  { unfold translation_dense_call, dense_call. now rewrite map_id. }
  rewrite E, translation_dense_ok by (try assumption; unfold to_complex; now rewrite map_length). rewrite range_product. rewrite !flat_map_concat_map, concat_map, map_map. f_equal. apply map_ext_in. intros u U.
  unfold range in U. apply in_seq in U. rewrite map_map. rewrite raster_length, <- raster_row_major, map_map. apply map_ext_in. intros t T. apply in_raster in T.
  rewrite <- raster_length. rewrite (bias_entry sh al) by (auto; lia).
  match goal with |- (?a + ?c)%C = _ => replace (a + c)%C with (c + a)%C by ring end. f_equal.
  rewrite Csum_map. rewrite <- (translated_sum sh _ t (in_shape_length _ _ T)).
  apply Csum_ext. intros l Hl. apply in_raster in Hl. assert (Lt := in_shape_length _ _ T).
  rewrite kernel_entry by (auto using shifted_in; lia). rewrite rolled_shifted by assumption. now rewrite spin_nth.
Qed.

(** * Gradients *)
Lemma seq_from a n : seq a n = map (fun k => a + k) (seq 0 n).
Proof. revert a. induction n as [|n IH]; intros a; [reflexivity|]. cbn [seq map]. rewrite (IH (S a)), (IH 1), map_map. f_equal; [lia|]. apply map_ext. intros. lia. Qed.
Definition pair (a b : list C) : C := Csum (fun k => (Cconj (nth k a C0) * nth k b C0)%C) (seq 0 (length b)).
Lemma pair_app a1 a2 b1 b2 : length a1 = length b1 -> pair (a1 ++ a2) (b1 ++ b2) = (pair a1 b1 + pair a2 b2)%C.
Proof.
  intros L. unfold pair. rewrite app_length, seq_app, Csum_app. f_equal.
  - apply Csum_ext. intros k K. apply in_seq in K. rewrite !app_nth1 by lia. reflexivity.
  - cbn [Nat.add]. rewrite (seq_from (length b1)), Csum_map. apply Csum_ext. intros k _. rewrite !app_nth2 by lia. f_equal; [f_equal|]; f_equal; lia.
Qed.

Lemma dot_gradient_length x g : length (dot_gradient x g) = length x * length g.
Proof. unfold dot_gradient. induction x as [|a x IH]; [reflexivity|]. cbn [flat_map length]. rewrite app_length, map_length, IH. lia. Qed.
Lemma dot_gradient_nth x g v j : v < length x -> j < length g -> nth (v * length g + j) (dot_gradient x g) C0 = (Cconj (nth v x C0) * nth j g C0)%C.
Proof.
  intros Hv Hj. unfold dot_gradient. rewrite (nth_flat_map_const _ (length g) _ v j C0) by (auto; intros; apply map_length).
  rewrite (nth_map_in _ _ _ C0 C0) by exact Hj. reflexivity.
Qed.
Lemma Csum_product n m (f : nat -> C) : Csum f (seq 0 (n * m)) = Csum (fun v => Csum (fun j => f (v * m + j)) (seq 0 m)) (seq 0 n).
Proof. change (seq 0 (n * m)) with (range (n * m)). rewrite range_product, Csum_flat_map. apply Csum_ext. intros v _. rewrite Csum_map. reflexivity. Qed.

(** ** The kernel of the symmetric machine *)
Lemma rolled_back sh : forall t l, length t = length sh -> in_shape sh l -> rolled_loc (map (fun c => - Z.of_nat c)%Z t) sh l = shifted sh t l.
Proof.
  induction sh as [|n sh IH]; intros [|a t] l HL H; inversion H as [|i ? l' ? Hi T]; subst; try discriminate; cbn [shifted rolled_loc map]; [reflexivity|].
  f_equal; [|apply IH; auto]. apply Nat2Z.inj. rewrite Z2Nat.id by (apply Z.mod_pos_bound; lia). rewrite Nat2Z.inj_mod, Nat2Z.inj_add. f_equal. lia.
Qed.

Lemma kernel_gradient_length sh al g : length (translation_kernel_gradient sh al g) = volume sh * al.
Proof. unfold translation_kernel_gradient, range. rewrite map_length, seq_length. reflexivity. Qed.
Lemma kernel_gradient_entry sh al x g l u : length x = volume sh -> length g = al * volume sh -> in_shape sh l -> u < al ->
  nth (row_major sh l * al + u) (translation_kernel_gradient sh al (dot_gradient x g)) C0 =
  Csum (fun t => (Cconj (nth (row_major sh (shifted sh t l)) x C0) * nth (u * volume sh + row_major sh t)%nat g C0)%C) (raster sh).
Proof.
  intros Lx Lg Hl Hu. unfold translation_kernel_gradient. change (number_of_visible sh) with (volume sh). assert (V := row_major_lt sh l Hl).
  unfold range. rewrite nth_map_seq by nia. rewrite raster_length.
  match goal with |- context [map2 ?f (raster sh) (map ?h (seq 0 (volume sh)))] => assert (M : map2 f (raster sh) (map h (seq 0 (volume sh))) = map (fun t => f t (h (row_major sh t))) (raster sh)) end.
  { change (seq 0 (volume sh)) with (range (volume sh)). rewrite <- raster_row_major, map_map. generalize (raster sh). intros q. induction q as [|a q IH]; [reflexivity|]. cbn [map map2]. now rewrite IH. }
  rewrite M, Csum_map. apply Csum_ext. intros t T. apply in_raster in T. assert (VT := row_major_lt sh t T). cbv beta.
  assert (I := in_shape_unit sh l al u Hl Hu). rewrite <- (row_major_unit sh l al u Hl Hu).
  match goal with |- nth _ (snd (tf_roll C0 ?sf ?arr)) C0 = _ => transitivity (entry_at C0 (tf_roll C0 sf arr) (l ++ [u])); [rewrite entry_row_major by exact I; reflexivity|] end.
  assert (Lt : length (map (fun c => - Z.of_nat c)%Z t) = length sh) by (rewrite map_length; now apply in_shape_length).
  unfold tf_roll. cbn [fst]. rewrite entry_rearrange by exact I. rewrite rolled_unit by assumption. rewrite rolled_back by (auto; now apply in_shape_length).
  assert (I' := shifted_in sh t l (in_shape_length _ _ T) Hl). assert (V' := row_major_lt sh _ I').
  rewrite entry_row_major by (cbn [fst]; now apply in_shape_unit). cbn [fst snd]. rewrite row_major_unit by assumption. rewrite nth_map_seq by nia.
  replace ((row_major sh (shifted sh t l) * al + u) * volume sh + row_major sh t) with (row_major sh (shifted sh t l) * length g + (u * volume sh + row_major sh t)) by (rewrite Lg; nia).
  rewrite dot_gradient_nth by (rewrite ?Lx, ?Lg; nia). reflexivity.
Qed.
Lemma bias_gradient_entry sh al g u : u < al -> nth u (translation_bias_gradient sh al g) C0 = Csum (fun t => nth (u * volume sh + row_major sh t)%nat g C0) (raster sh).
Proof.
  intros U. unfold translation_bias_gradient. change (number_of_visible sh) with (volume sh). unfold range at 2. rewrite nth_map_seq by exact U. rewrite Csum_range_raster. reflexivity.
Qed.

(** ** Hidden units *)
Lemma hidden_length m ws s : length (hidden m ws s) = alpha m * volume (input_dims m).
Proof.
  unfold hidden. destruct (symmetric m); [|rewrite map_length, seq_length; reflexivity].
  rewrite flat_map_concat_map, (TrainingProofs.concat_length_const _ (volume (input_dims m))); [rewrite map_length, seq_length; reflexivity|].
  intros r Hr. apply in_map_iff in Hr. destruct Hr as (u & <- & _). rewrite map_length. apply raster_length.
Qed.
Lemma hidden_plain m ws s j : symmetric m = false -> j < alpha m * volume (input_dims m) ->
  nth j (hidden m ws s) C0 = (nth j (nth 1 ws []) C0 + Csum (fun v => spin s v * nth (v * (alpha m * volume (input_dims m)) + j)%nat (nth 0 ws []) C0) (seq 0 (volume (input_dims m))))%C.
Proof. intros E J. unfold hidden. rewrite E. rewrite (nth_map_seq (fun j => (nth j (nth 1 ws []) C0 + _)%C)) by exact J. reflexivity. Qed.
Lemma hidden_sym m ws s u t : symmetric m = true -> u < alpha m -> in_shape (input_dims m) t ->
  nth (u * volume (input_dims m) + row_major (input_dims m) t) (hidden m ws s) C0 =
  (nth u (nth 1 ws []) C0 + Csum (fun l => spin s (row_major (input_dims m) (shifted (input_dims m) t l)) * nth (row_major (input_dims m) l * alpha m + u)%nat (nth 0 ws []) C0) (raster (input_dims m)))%C.
Proof.
  intros E U T. unfold hidden. rewrite E. assert (V := row_major_lt _ t T).
  rewrite (nth_flat_map_const _ (volume (input_dims m)) _ u (row_major (input_dims m) t) 0); [|intros; rewrite map_length; apply raster_length|exact V|rewrite seq_length; exact U].
  rewrite seq_nth by exact U. cbn [Nat.add].
  match goal with |- nth _ (map ?f (raster _)) _ = _ => rewrite (nth_raster_map f C0 (input_dims m) t T) end. reflexivity.
Qed.

Lemma gradient_pair m ws vs s : fits m ws -> fits m vs -> 0 < volume (input_dims m) -> length s = volume (input_dims m) -> nonzero m ws s ->
  pair (concat (weight_gradients m ws s)) (concat vs) =
  (visible m vs s + Csum (fun j => nth j (hidden m vs s) C0 * complex_tanh (nth j (hidden m ws s) C0)) (seq 0 (alpha m * volume (input_dims m))))%C.
Proof.
  intros F F' V L NZ. destruct (fits_parts m ws F) as (k & b & v & -> & Lk & Lb & Lv). destruct (fits_parts m vs F') as (k' & b' & v' & -> & Lk' & Lb' & Lv').
  set (n := volume (input_dims m)) in *. set (ws := [k; b; v]) in *. set (vs := [k'; b'; v']).
  pose (h := hidden m ws s). pose (g := map (fun z => lncosh_gradient z C1) h).
  assert (Lh : length h = alpha m * n) by apply hidden_length. assert (Lg : length g = alpha m * n) by (unfold g; rewrite map_length; exact Lh).
  assert (G : forall j, j < alpha m * n -> Cconj (nth j g C0) = complex_tanh (nth j h C0)).
  { intros j J. unfold g. rewrite (nth_map_in _ _ _ C0 C0) by lia. rewrite lncosh_gradient_tanh by (apply NZ; apply nth_In; eapply Nat.lt_le_trans; [exact J|apply Nat.eq_le_incl; symmetry; exact Lh]). transitivity (Cconj (Cconj (complex_tanh (nth j h C0)))); [f_equal; ring|apply Cconj_conj]. }
  assert (LT : length (to_complex s) = n) by (unfold to_complex; rewrite map_length; exact L).
  assert (VS : forall x c, length x = length c -> pair (dot_gradient x [C1]) c = Csum (fun i => (nth i x C0 * nth i c C0)%C) (seq 0 (length c))).
  { intros x c LL. unfold pair. apply Csum_ext. intros i I. apply in_seq in I. pose proof (dot_gradient_nth x [C1] i 0) as D. cbn [length] in D. rewrite Nat.mul_1_r, Nat.add_0_r in D. rewrite D by lia. cbn [nth].
    rewrite Cconj_mult, Cconj_conj. replace (Cconj C1) with C1; [ring|]. unfold Cconj, C1, Re, Im. cbn [fst snd]. f_equal. ring. }
  unfold weight_gradients. cbn [nth]. destruct (symmetric m) eqn:SY.
  - rewrite thetas_sym by assumption.
    replace (flat_map _ (seq 0 (alpha m))) with h by (unfold h, hidden; rewrite SY; reflexivity). fold g.
    change (concat vs) with (k' ++ b' ++ v' ++ []). cbn [concat]. rewrite !app_nil_r. rewrite pair_app by (rewrite kernel_gradient_length, Lk'; reflexivity).
    rewrite pair_app by (unfold translation_bias_gradient, range; rewrite map_length, seq_length; symmetry; exact Lb'). rewrite VS by (rewrite Lv'; reflexivity).
    assert (VV : Csum (fun i => (nth i [Csum (fun z => z) (to_complex s)] C0 * nth i v' C0)%C) (seq 0 (length v')) = visible m vs s).
    { rewrite Lv'. cbn [seq]. rewrite Csum_cons. cbn [nth]. unfold visible, vs. cbn [nth]. rewrite SY. unfold to_complex. rewrite Csum_unit, (Csum_spins s n L), <- Csum_scal_r. fold n. unfold Csum at 2. cbn [fold_right map]. match goal with |- (?x + _)%C = _ => transitivity x; [ring|reflexivity] end. }
    rewrite VV.
    assert (BB : pair (translation_bias_gradient (input_dims m) (alpha m) g) b' = Csum (fun u => Csum (fun t => (nth u b' C0 * complex_tanh (nth (u * n + row_major (input_dims m) t)%nat h C0))%C) (raster (input_dims m))) (seq 0 (alpha m))).
    { unfold pair. rewrite Lb'. apply Csum_ext. intros u U. apply in_seq in U. rewrite bias_gradient_entry by lia. rewrite Csum_conj, <- Csum_scal_r. apply Csum_ext. intros t T. apply in_raster in T. pose proof (row_major_lt _ _ T) as VT. fold n in VT |- *.
      rewrite G by nia. ring. }
    assert (KK : pair (translation_kernel_gradient (input_dims m) (alpha m) (dot_gradient (to_complex s) g)) k' =
      Csum (fun u => Csum (fun t => (Csum (fun l => (spin s (row_major (input_dims m) (shifted (input_dims m) t l)) * nth (row_major (input_dims m) l * alpha m + u)%nat k' C0)%C) (raster (input_dims m)) *
        complex_tanh (nth (u * n + row_major (input_dims m) t)%nat h C0))%C) (raster (input_dims m))) (seq 0 (alpha m))).
    { unfold pair. rewrite Lk', Csum_product. change (seq 0 n) with (range (volume (input_dims m))). rewrite (Csum_range_raster (input_dims m) (fun v => Csum (fun j => _) (seq 0 (alpha m)))), Csum_exchange. apply Csum_ext. intros u U. apply in_seq in U.
      transitivity (Csum (fun l => Csum (fun t => (spin s (row_major (input_dims m) (shifted (input_dims m) t l)) * complex_tanh (nth (u * n + row_major (input_dims m) t)%nat h C0) * nth (row_major (input_dims m) l * alpha m + u)%nat k' C0)%C) (raster (input_dims m))) (raster (input_dims m))).
      - apply Csum_ext. intros l Hl. apply in_raster in Hl. rewrite kernel_gradient_entry by (try assumption; lia). rewrite Csum_conj, <- Csum_scal_r. apply Csum_ext. intros t T. apply in_raster in T.
        pose proof (row_major_lt _ _ T) as VT. fold n in VT |- *. rewrite Cconj_mult, Cconj_conj, spin_nth, G by nia. ring.
      - rewrite Csum_exchange. apply Csum_ext. intros t _. rewrite <- Csum_scal_r. apply Csum_ext. intros l _. ring. }
    rewrite BB, KK. rewrite (Csum_product (alpha m) n).
    assert (HH : Csum (fun u => Csum (fun j => (nth (u * n + j)%nat (hidden m vs s) C0 * complex_tanh (nth (u * n + j)%nat h C0))%C) (seq 0 n)) (seq 0 (alpha m)) =
      Csum (fun u => Csum (fun t => (nth (u * n + row_major (input_dims m) t)%nat (hidden m vs s) C0 * complex_tanh (nth (u * n + row_major (input_dims m) t)%nat h C0))%C) (raster (input_dims m))) (seq 0 (alpha m))).
    { apply Csum_ext. intros u _. change (seq 0 n) with (range (volume (input_dims m))). rewrite (Csum_range_raster (input_dims m)). reflexivity. }
    fold h. rewrite HH.
    match goal with |- (?a + (?c + ?d))%C = _ => replace (a + (c + d))%C with (d + (c + a))%C by ring end. f_equal. rewrite <- Csum_plus. apply Csum_ext. intros u U. apply in_seq in U. rewrite <- Csum_plus. apply Csum_ext. intros t T. apply in_raster in T.
    unfold n. rewrite hidden_sym by (try assumption; lia). cbn [nth vs]. fold n. ring.
  - rewrite (thetas_plain n) by assumption.
    replace (map _ (seq 0 (alpha m * n))) with h by (unfold h, hidden; rewrite SY; reflexivity). fold g.
    change (concat vs) with (k' ++ b' ++ v' ++ []). cbn [concat]. rewrite !app_nil_r. rewrite pair_app by (rewrite dot_gradient_length, LT, Lg, Lk'; reflexivity).
    rewrite pair_app by (rewrite Lg, Lb'; reflexivity). rewrite VS by (rewrite Lv'; exact LT).
    assert (VV : Csum (fun i => (nth i (to_complex s) C0 * nth i v' C0)%C) (seq 0 (length v')) = visible m vs s).
    { rewrite Lv'. unfold visible, vs. cbn [nth]. rewrite SY. apply Csum_ext. intros i _. now rewrite spin_nth. }
    rewrite VV.
    assert (KK : pair (dot_gradient (to_complex s) g) k' = Csum (fun j => (Csum (fun v => (spin s v * nth (v * (alpha m * n) + j)%nat k' C0)%C) (seq 0 n) * complex_tanh (nth j h C0))%C) (seq 0 (alpha m * n))).
    { unfold pair. rewrite Lk', Csum_product, Csum_exchange. apply Csum_ext. intros j J. apply in_seq in J. rewrite <- Csum_scal_r. apply Csum_ext. intros i I. apply in_seq in I.
      replace (alpha m * n) with (length g) by exact Lg. rewrite dot_gradient_nth by lia. rewrite Cconj_mult, Cconj_conj, spin_nth, G by lia. ring. }
    assert (BB : pair g b' = Csum (fun j => (nth j b' C0 * complex_tanh (nth j h C0))%C) (seq 0 (alpha m * n))).
    { unfold pair. rewrite Lb'. apply Csum_ext. intros j J. apply in_seq in J. rewrite G by lia. ring. }
    rewrite KK, BB. fold h. match goal with |- (?a + (?c + ?d))%C = _ => replace (a + (c + d))%C with (d + (c + a))%C by ring end. f_equal. rewrite <- Csum_plus. apply Csum_ext. intros j J. apply in_seq in J.
    rewrite (hidden_plain m vs s j SY) by (fold n; lia). cbn [nth vs]. fold n. ring.
Qed.

(** * Derivatives *)
Lemma fits_concat m ws : fits m ws -> fits m (map (fun w => w) ws) /\ length (concat ws) = let n := volume (input_dims m) in
  if symmetric m then n * alpha m + (alpha m + 1) else n * (alpha m * n) + (alpha m * n + n).
Proof.
  intros F. rewrite map_id. split; [exact F|]. destruct (fits_parts m ws F) as (k & b & v & -> & Lk & Lb & Lv). cbn [concat]. rewrite app_nil_r, !app_length, Lk, Lb, Lv. destruct (symmetric m); reflexivity.
Qed.
Lemma fits_same m ws vs : map (@length C) ws = map (@length C) vs -> fits m ws -> fits m vs.
Proof. unfold fits. intros <-. trivial. Qed.
Lemma gradients_lengths m ws s : fits m ws -> 0 < volume (input_dims m) -> length s = volume (input_dims m) -> map (@length C) (weight_gradients m ws s) = map (@length C) ws.
Proof.
  intros F V L. destruct (fits_parts m ws F) as (k & b & v & -> & Lk & Lb & Lv). unfold weight_gradients. cbn [nth map]. assert (LT : length (to_complex s) = volume (input_dims m)) by (unfold to_complex; rewrite map_length; exact L).
  destruct (symmetric m).
  - rewrite Lk, Lb, Lv. cbn [map]. rewrite kernel_gradient_length, dot_gradient_length. unfold translation_bias_gradient, range. rewrite map_length, seq_length. reflexivity.
  - rewrite (thetas_plain (volume (input_dims m))) by assumption. rewrite Lk, Lb, Lv. cbn [map]. rewrite !dot_gradient_length, LT, !map_length, seq_length. cbn [length]. rewrite Nat.mul_1_r. reflexivity.
Qed.
Lemma lengths_concat {A} : forall (a b : list (list A)), map (@length A) a = map (@length A) b -> length (concat a) = length (concat b).
Proof. induction a as [|x a IH]; intros [|y b] E; try discriminate; [reflexivity|]. cbn [map] in E. injection E as E1 E2. cbn [concat]. rewrite !app_length, (IH b E2), E1. reflexivity. Qed.

Lemma hidden_moves m ws x vs s j : weights_move ws x vs -> j < alpha m * volume (input_dims m) -> Cderive (fun t => nth j (hidden m (ws t) s) C0) x (nth j (hidden m vs s) C0).
Proof.
  intros [_ D] J. destruct (symmetric m) eqn:SY.
  - assert (Vn : 0 < volume (input_dims m)) by nia. set (n := volume (input_dims m)) in *.
    assert (Hu : j / n < alpha m) by (apply Nat.div_lt_upper_bound; lia). assert (Hv : j mod n < n) by (apply Nat.mod_upper_bound; lia).
    assert (E : exists t0, in_shape (input_dims m) t0 /\ row_major (input_dims m) t0 = j mod n) by (exists (location (input_dims m) (j mod n)); split; [now apply location_in|now apply row_major_location]).
    destruct E as (t0 & T & R). assert (Ej : j = j / n * n + row_major (input_dims m) t0) by (rewrite R, (Nat.mul_comm (j / n)); apply Nat.div_mod; lia).
    rewrite Ej. unfold n. rewrite (hidden_sym m vs) by assumption. fold n.
    match goal with |- Cderive _ x ?d => enough (Cderive (fun t => (nth (j / n) (nth 1 (ws t) []) C0 + Csum (fun l => spin s (row_major (input_dims m) (shifted (input_dims m) t0 l)) * nth (row_major (input_dims m) l * alpha m + j / n)%nat (nth 0 (ws t) []) C0) (raster (input_dims m)))%C) x d) as G end.
    { eapply Cderive_ext; [|exact G]. intros t. symmetry. unfold n. apply hidden_sym; assumption. }
    apply Cderive_plus; [apply D|]. apply (Cderive_sum (fun l t => (spin s (row_major (input_dims m) (shifted (input_dims m) t0 l)) * nth (row_major (input_dims m) l * alpha m + j / n)%nat (nth 0 (ws t) []) C0)%C)). intros l _. apply Cderive_scal, D.
  - rewrite (hidden_plain m vs s j SY J).
    match goal with |- Cderive _ x ?d => enough (Cderive (fun t => (nth j (nth 1 (ws t) []) C0 + Csum (fun v => spin s v * nth (v * (alpha m * volume (input_dims m)) + j)%nat (nth 0 (ws t) []) C0) (seq 0 (volume (input_dims m))))%C) x d) as G end.
    { eapply Cderive_ext; [|exact G]. intros t. symmetry. apply hidden_plain; assumption. }
    apply Cderive_plus; [apply D|]. apply (Cderive_sum (fun v t => (spin s v * nth (v * (alpha m * volume (input_dims m)) + j)%nat (nth 0 (ws t) []) C0)%C)). intros v _. apply Cderive_scal, D.
Qed.
Lemma Csum_nth (f : C -> C) l : Csum f l = Csum (fun j => f (nth j l C0)) (seq 0 (length l)).
Proof. rewrite <- (Csum_map (fun j => nth j l C0) f). f_equal. apply (list_ext_nth C0); [rewrite map_length, seq_length; reflexivity|]. intros j J. rewrite (nth_map_seq (fun j => nth j l C0)) by exact J. reflexivity. Qed.

Lemma prediction_moves m ws x vs s : fits m (ws x) -> 0 < volume (input_dims m) -> length s = volume (input_dims m) -> nonzero m (ws x) s -> weights_move ws x vs ->
  log_derivative (fun t => prediction m (ws t) s) x
    (row_times (length (concat (ws x))) (fun k => nth k (map Cconj (concat (weight_gradients m (ws x) s))) C0) (fun k => nth k (concat vs) C0)).
Proof.
  intros F V L NZ M. pose proof M as [LW D].
  assert (FT : forall t, fits m (ws t)) by (intros t; apply (fits_same m (ws x)); [rewrite !LW; reflexivity|exact F]).
  assert (FV : fits m vs) by (apply (fits_same m (ws x)); [apply LW|exact F]).
  assert (LG : length (concat (weight_gradients m (ws x) s)) = length (concat (ws x))) by (apply lengths_concat, gradients_lengths; assumption).
  assert (LV : length (concat (ws x)) = length (concat vs)) by apply lengths_concat, LW.
  match goal with |- log_derivative _ x ?d => assert (E : d = pair (concat (weight_gradients m (ws x) s)) (concat vs)) end.
  { unfold row_times, pair. rewrite LV. apply Csum_ext. intros k K. apply in_seq in K. rewrite (nth_map_in _ _ _ C0 C0) by lia. reflexivity. }
  rewrite E, (gradient_pair m (ws x) vs s F FV V L NZ).
  apply (ld_ext (fun t => (visible m (ws t) s + Csum (fun j => lncosh (nth j (hidden m (ws t) s) C0)) (seq 0 (alpha m * volume (input_dims m))))%C)).
  { intros t. rewrite prediction_formula by auto. rewrite (Csum_nth lncosh), hidden_length. reflexivity. }
  apply ld_plus.
  - apply ld_smooth. unfold visible. apply (Cderive_sum (fun v t => (spin s v * nth (if symmetric m then 0 else v) (nth 2 (ws t) []) C0)%C)). intros v _. apply Cderive_scal, D.
  - apply (ld_sum (fun j t => lncosh (nth j (hidden m (ws t) s) C0))). intros j J. apply in_seq in J. apply (ld_lncosh (fun t => nth j (hidden m (ws t) s) C0)); [apply hidden_moves; [exact M|lia]|].
    apply NZ, nth_In. rewrite hidden_length. lia.
Qed.

(** * The jacobian *)
Lemma flat_map_nth3 {A B} (f : A -> list (list B)) (l : list A) : forall i, (forall a, In a l -> i < length (f a)) -> flat_map (fun row => nth i row []) (map f l) = flat_map (fun a => nth i (f a) []) l.
Proof. intros i _. induction l as [|a l IH]; [reflexivity|]. cbn [map flat_map]. now rewrite IH. Qed.
Lemma flat_map_seq_nth {A B} (d : A) (f : A -> list B) (l : list A) : flat_map f l = flat_map (fun i => f (nth i l d)) (seq 0 (length l)).
Proof. rewrite !flat_map_concat_map. f_equal. apply (list_ext_nth []); [rewrite !map_length, seq_length; reflexivity|]. intros i I. rewrite map_length in I. rewrite (nth_map_in _ _ _ [] d) by exact I. rewrite (nth_map_seq (fun i => f (nth i l d))) by exact I. reflexivity. Qed.
Lemma map_seq_nth {A B} (d : A) (f : A -> B) (l : list A) n : length l = n -> map f l = map (fun k => f (nth k l d)) (seq 0 n).
Proof. intros <-. destruct l as [|a0 l0]; [reflexivity|]. set (l := a0 :: l0). apply (list_ext_nth (f d)); [rewrite !map_length, seq_length; reflexivity|]. intros i I. rewrite map_length in I. rewrite map_nth. rewrite (nth_map_seq (fun k => f (nth k l d))) by exact I. reflexivity. Qed.

Lemma jacobian_tensors m ws samples a b c : fits m ws -> 0 < volume (input_dims m) -> Forall (fun s => length s = volume (input_dims m)) samples ->
  map (@length C) ws = [fold_right Nat.mul 1 a; fold_right Nat.mul 1 b; fold_right Nat.mul 1 c] ->
  let part := fun i e k => Cconj (nth k (nth i (weight_gradients m ws (nth e samples [])) []) C0) in
  predictions_jacobian m ws samples = derivative_tensors (length samples) [(a, part 0); (b, part 1); (c, part 2)].
Proof.
  intros F V FS SH part. unfold predictions_jacobian. change (range 6) with [0; 1; 2; 3; 4; 5]. cbn [map].
  assert (G : forall s, In s samples -> exists g0 g1 g2, weight_gradients m ws s = [g0; g1; g2] /\ length g0 = fold_right Nat.mul 1 a /\ length g1 = fold_right Nat.mul 1 b /\ length g2 = fold_right Nat.mul 1 c).
  { intros s I. rewrite Forall_forall in FS. pose proof (gradients_lengths m ws s F V (FS s I)) as E. rewrite SH in E.
    destruct (weight_gradients m ws s) as [|g0 [|g1 [|g2 [|]]]]; try discriminate. cbn [map] in E. injection E as E0 E1 E2. exists g0, g1, g2. auto. }
  assert (H : forall i j sh (f : C -> R), (forall s, In s samples -> nth i (flat_map variable_gradients (weight_gradients m ws s)) [] = map (fun z => f (Cconj z)) (nth j (weight_gradients m ws s) []) /\ length (nth j (weight_gradients m ws s) []) = sh) ->
    flat_map (fun row => nth i row []) (map (fun s => flat_map variable_gradients (weight_gradients m ws s)) samples) = flat_derivatives f (length samples) sh (part j)).
  { intros i j sh f Q. unfold flat_derivatives. transitivity (flat_map (fun s => map (fun z => f (Cconj z)) (nth j (weight_gradients m ws s) [])) samples).
    - clear G FS. induction samples as [|s l IH]; [reflexivity|]. cbn [map flat_map]. rewrite (proj1 (Q s (or_introl eq_refl))). f_equal. apply IH. intros s' I. apply Q. now right.
    - rewrite (flat_map_seq_nth []). rewrite !flat_map_concat_map. f_equal. apply map_ext_in. intros e I. apply in_seq in I.
      apply (map_seq_nth C0 (fun z => f (Cconj z))). apply Q, nth_In. lia. }
  assert (MI : forall g : list C, map (fun z => Im z * -1)%R g = map (fun z => Im (Cconj z)) g) by (intros g; apply map_ext; intros z; unfold Cconj, Im; cbn [snd]; ring).
  assert (MR : forall g : list C, map Re g = map (fun z => Re (Cconj z)) g) by (intros g; apply map_ext; intros z; reflexivity).
  rewrite (H 0 0 (fold_right Nat.mul 1 a) Re), (H 1 0 (fold_right Nat.mul 1 a) Im), (H 2 1 (fold_right Nat.mul 1 b) Re), (H 3 1 (fold_right Nat.mul 1 b) Im), (H 4 2 (fold_right Nat.mul 1 c) Re), (H 5 2 (fold_right Nat.mul 1 c) Im); [reflexivity|..];
    intros s I; destruct (G s I) as (g0 & g1 & g2 & E & E0 & E1 & E2); rewrite E; cbn [flat_map variable_gradients app nth]; auto.
Qed.

Lemma jacobian_value m ws samples : fits m ws -> 0 < volume (input_dims m) -> Forall (fun s => length s = volume (input_dims m)) samples -> 0 < length samples ->
  get_predictions_jacobian (Some (predictions_jacobian m ws samples)) = Ok (map (fun s => map Cconj (concat (weight_gradients m ws s))) samples).
Proof.
  intros F V FS P. destruct (fits_parts m ws F) as (k & b & v & E & Lk & Lb & Lv).
  assert (U : forall n, fold_right Nat.mul 1 [n] = n) by (intros n; cbn [fold_right]; apply Nat.mul_1_r).
  rewrite (jacobian_tensors m ws samples [length k] [length b] [length v] F V FS) by (rewrite E, !U; reflexivity).
  rewrite jacobian_rows by (try assumption; discriminate). f_equal. unfold rows_of. rewrite (map_seq_nth [] _ samples _ eq_refl). apply map_ext_in. intros e I. apply in_seq in I.
  cbn [map concat fst snd]. rewrite !U, app_nil_r. set (s := nth e samples []).
  pose proof (gradients_lengths m ws s F V ltac:(rewrite Forall_forall in FS; apply FS, nth_In; lia)) as GL. rewrite E in GL at 2. cbn [map] in GL.
  destruct (weight_gradients m ws s) as [|g0 [|g1 [|g2 [|]]]] eqn:EG; try discriminate. cbn [map] in GL. injection GL as E0 E1 E2.
  cbn [concat]. rewrite app_nil_r, !map_app. cbn [nth].
  rewrite (map_seq_nth C0 Cconj g0 _ E0), (map_seq_nth C0 Cconj g1 _ E1), (map_seq_nth C0 Cconj g2 _ E2). reflexivity.
Qed.

Lemma derivatives_logarithmic m ws samples : fits m ws -> 0 < volume (input_dims m) -> Forall (fun s => length s = volume (input_dims m)) samples -> Forall (nonzero m ws) samples ->
  logarithmic_derivatives m ws samples (map (fun s => map Cconj (concat (weight_gradients m ws s))) samples).
Proof.
  intros F V FS NZ. split; [apply map_length|]. intros i I. rewrite (nth_map_in _ _ _ [] []) by exact I. set (s := nth i samples []).
  assert (IS : In s samples) by (apply nth_In; exact I). rewrite Forall_forall in FS, NZ. split.
  - rewrite map_length. apply lengths_concat, gradients_lengths; auto.
  - intros path x vs <- M. apply prediction_moves; auto.
Qed.

(** * The rows are determined *)
Fixpoint unit_velocity (off : nat) (ws : list (list C)) (k : nat) : list (list C) :=
  match ws with
  | [] => []
  | w :: t => map (fun j => if j =? k then C1 else C0) (seq off (length w)) :: unit_velocity (off + length w) t k
  end.
Lemma unit_velocity_concat ws k : forall off, concat (unit_velocity off ws k) = map (fun j => if j =? k then C1 else C0) (seq off (length (concat ws))).
Proof. induction ws as [|w t IH]; intros off; [reflexivity|]. cbn [unit_velocity concat]. rewrite IH, app_length, seq_app, map_app. reflexivity. Qed.
Lemma unit_velocity_lengths ws k : forall off, map (@length C) (unit_velocity off ws k) = map (@length C) ws.
Proof. induction ws as [|w t IH]; intros off; [reflexivity|]. cbn [unit_velocity map]. rewrite IH, map_length, seq_length. reflexivity. Qed.
Definition straight (ws vs : list (list C)) (t : R) : list (list C) := map2 (fun w v => map2 (fun a b => (a + RtoC t * b)%C) w v) ws vs.
Lemma straight_moves ws : forall vs, map (@length C) ws = map (@length C) vs -> weights_move (straight ws vs) 0 vs /\ straight ws vs 0 = ws.
Proof.
  assert (IN : forall (w v : list C), length w = length v -> (forall t : R, length (map2 (fun a b => (a + RtoC t * b)%C) w v) = length v) /\ map2 (fun a b => (a + RtoC 0 * b)%C) w v = w /\
    forall k, Cderive (fun t => nth k (map2 (fun a b => (a + RtoC t * b)%C) w v) C0) 0 (nth k v C0)).
  { induction w as [|a w IH]; intros [|b v] E; try discriminate.
    - split; [reflexivity|]. split; [reflexivity|]. intros [|k]; exact (Cderive_const C0 0%R).
    - cbn [length] in E. injection E as E. destruct (IH v E) as (I1 & I2 & I3). split; [intros t; cbn [map2 length]; now rewrite I1|]. split.
      + cbn [map2]. rewrite I2. f_equal. change (RtoC 0) with C0. ring.
      + intros [|k]; cbn [map2 nth]; [|apply I3]. assert (Q : Cderive (fun t : R => (a + RtoC t * b)%C) 0 (C0 + b)%C); [|replace (C0 + b)%C with b in Q by ring; exact Q].
        apply (Cderive_plus (fun _ => a)); [apply Cderive_const|].
        destruct b as [u w']. split; cbn [Re Im fst snd Cmult RtoC].
        * apply (limit_ext (fun t : R => (u * t)%R)); [intros t; unfold Cmult, RtoC, Re, Im; cbn [fst snd]; ring|]. apply (limit_value _ _ (u * 1)%R); [ring|]. apply (derivable_pt_lim_scal id), derivable_pt_lim_id.
        * apply (limit_ext (fun t : R => (w' * t)%R)); [intros t; unfold Cmult, RtoC, Re, Im; cbn [fst snd]; ring|]. apply (limit_value _ _ (w' * 1)%R); [ring|]. apply (derivable_pt_lim_scal id), derivable_pt_lim_id. }
  induction ws as [|w ws IH]; intros [|v vs] E; try discriminate.
  - split; [|reflexivity]. split; [reflexivity|]. intros [|i] [|k]; exact (Cderive_const C0 0%R).
  - cbn [map] in E. injection E as E1 E2. destruct (IN w v E1) as (I1 & I2 & I3). destruct (IH vs E2) as [[J1 J2] J3]. split; [split|].
    + intros t. cbn [straight map2 map]. rewrite I1. f_equal. exact (J1 t).
    + intros [|i] k; cbn [straight map2 nth]; [apply I3|exact (J2 i k)].
    + unfold straight in *. cbn [map2]. rewrite I2. f_equal. exact J3.
Qed.
Lemma log_derivative_unique f x d d' : log_derivative f x d -> log_derivative f x d' -> d = d'.
Proof.
  intros [[A1 A2] _] [[B1 B2] _]. pose proof (uniqueness_limite _ _ _ _ A1 B1) as E1. pose proof (uniqueness_limite _ _ _ _ A2 B2) as E2.
  assert (E : (Cexp (f x) * d)%C = (Cexp (f x) * d')%C) by (apply C_eq; assumption).
  transitivity (Cinv (Cexp (f x)) * (Cexp (f x) * d))%C; [|rewrite E].
  - transitivity (Cexp (f x) * Cinv (Cexp (f x)) * d)%C; [rewrite Cmult_inv_r by apply Cexp_nonzero; ring|ring].
  - transitivity (Cexp (f x) * Cinv (Cexp (f x)) * d')%C; [ring|rewrite Cmult_inv_r by apply Cexp_nonzero; ring].
Qed.
Lemma derivatives_unique m ws samples O O' : logarithmic_derivatives m ws samples O -> logarithmic_derivatives m ws samples O' -> O = O'.
Proof.
  intros [L R] [L' R']. apply (list_ext_nth []); [lia|]. intros i I. destruct (R i ltac:(lia)) as [N D]. destruct (R' i ltac:(lia)) as [N' D']. apply (list_ext_nth C0); [lia|]. intros k K. rewrite N in K.
  destruct (straight_moves ws (unit_velocity 0 ws k) (eq_sym (unit_velocity_lengths ws k 0))) as [M S].
  assert (P : forall row : list C, row_times (length (concat ws)) (fun k => nth k row C0) (fun j => nth j (concat (unit_velocity 0 ws k)) C0) = nth k row C0).
  { intros row. unfold row_times. rewrite unit_velocity_concat. rewrite (ReconfigurationVecProofs.Csum_single _ _ k); [|apply seq_NoDup|apply in_seq; lia|].
    - rewrite nth_map_seq by exact K. rewrite Nat.eqb_refl. ring.
    - intros b B NB. apply in_seq in B. rewrite nth_map_seq by lia. apply Nat.eqb_neq in NB. rewrite NB. ring. }
  rewrite <- (P (nth i O [])), <- (P (nth i O' [])). exact (log_derivative_unique _ _ _ _ (D _ _ _ S M) (D' _ _ _ S M)).
Qed.
