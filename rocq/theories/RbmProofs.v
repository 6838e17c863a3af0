(** Lemmas about restricted Boltzmann machines. *)
From Coq Require Import List ZArith Arith Bool Reals Lia Permutation.
From Verif Require Import Base OrderingModel OrderingSpec OrderingProofs TopologyProofs Cplx IsingProofs ComplexModel ComplexSpec ComplexProofs MachinesProofs
  SymmetryModel SymmetrySpec SymmetryProofs SymmetryEnsembleProofs.
Import ListNotations.

Lemma range_product a b : range (a * b) = flat_map (fun u => map (fun t => u * b + t) (range b)) (range a).
Proof.
  unfold range. induction a as [|a IH]; [reflexivity|].
  rewrite seq_S, flat_map_app, <- IH. cbn [Nat.mul flat_map]. rewrite app_nil_r.
  rewrite (Nat.add_comm b), seq_app. f_equal. clear IH. cbn [Nat.add]. generalize (a * b). intros n.
  rewrite <- (Nat.add_0_r n) at 1. generalize 0. induction b as [|b IH]; intros m; cbn [seq map]; [reflexivity|].
  f_equal. rewrite <- IH. f_equal. lia.
Qed.

Lemma nth_range n i : i < n -> nth i (range n) 0 = i.
Proof. intros H. unfold range. now rewrite seq_nth. Qed.

Lemma stack_last_length {A} (d : A) xs : length (stack_last d xs) = length (hd [] xs) * length xs.
Proof.
  unfold stack_last, range. rewrite flat_map_concat_map, (TrainingProofs.concat_length_const _ (length xs)).
  - now rewrite map_length, seq_length.
  - intros r Hr. apply in_map_iff in Hr. destruct Hr as (b & <- & _). apply map_length.
Qed.

Lemma nth_flat_map_const {A B} (f : A -> list B) n (l : list A) b k dA dB : (forall a, length (f a) = n) -> k < n -> b < length l ->
  nth (b * n + k) (flat_map f l) dB = nth k (f (nth b l dA)) dB.
Proof.
  intros Hn Hk. revert b. induction l as [|a l IH]; intros b Hb; cbn [length] in Hb; [lia|].
  cbn [flat_map]. destruct b as [|b]; cbn [nth].
  - rewrite app_nth1 by (rewrite Hn; lia). reflexivity.
  - rewrite app_nth2 by (rewrite Hn; lia). rewrite Hn. replace (S b * n + k - n) with (b * n + k) by lia. apply IH. lia.
Qed.

Lemma nth_stack_last {A} (d : A) (xs : list (list A)) b k : k < length xs -> b < length (hd [] xs) ->
  nth (b * length xs + k) (stack_last d xs) d = nth b (nth k xs []) d.
Proof.
  intros Hk Hb. unfold stack_last. rewrite (nth_flat_map_const _ (length xs) _ b k 0).
  - unfold range. rewrite seq_nth by lia. cbn [Nat.add]. rewrite (nth_map_in _ _ _ d []) by lia. reflexivity.
  - intros. apply map_length.
  - exact Hk.
  - unfold range. now rewrite seq_length.
Qed.

(** * Locations of the kernel: a spatial location and a unit *)

Lemma row_major_unit sh : forall l units u, in_shape sh l -> u < units -> row_major (sh ++ [units]) (l ++ [u]) = row_major sh l * units + u.
Proof.
  induction sh as [|n sh IH]; intros l units u H Hu; inversion H as [|i ? l' ? Hi T]; subst; cbn [app row_major].
  - cbn. lia.
  - rewrite IH by assumption. rewrite volume_app. cbn. lia.
Qed.

Lemma in_shape_unit sh l units u : in_shape sh l -> u < units -> in_shape (sh ++ [units]) (l ++ [u]).
Proof. intros H Hu. apply Forall2_app; [exact H|]. repeat constructor. exact Hu. Qed.

Lemma rolled_unit sh : forall ts l units u, length ts = length sh -> in_shape sh l ->
  rolled_loc ts (sh ++ [units]) (l ++ [u]) = rolled_loc ts sh l ++ [u].
Proof.
  induction sh as [|n sh IH]; intros [|t ts] l units u Lt H; inversion H as [|i ? l' ? Hi T]; subst; try discriminate; cbn [app rolled_loc]; [reflexivity|].
  now rewrite IH by (auto; cbn in Lt; lia).
Qed.

Lemma kernel_entry sh units bare t l u : in_shape sh t -> in_shape sh l -> u < units ->
  nth (row_major sh l * (units * length (raster sh)) + (u * length (raster sh) + row_major sh t)) (translation_kernel sh units bare) C0 =
  nth (row_major sh (rolled_loc (map Z.of_nat t) sh l) * units + u) bare C0.
Proof.
  intros Ht Hl Hu. unfold translation_kernel. set (f := fun i => snd (tf_roll C0 (map Z.of_nat i) (sh ++ [units], bare))).
  assert (Lf : forall i, length (f i) = volume sh * units).
  { intros i. unfold f, tf_roll. rewrite rearrange_good. cbn [fst rearrange]. rewrite volume_app. cbn. lia. }
  assert (V := row_major_lt sh t Ht). assert (V' := row_major_lt sh l Hl). rewrite raster_length.
  replace (row_major sh l * (units * volume sh) + (u * volume sh + row_major sh t)) with
    ((row_major sh l * units + u) * length (map f (raster sh)) + row_major sh t) by (rewrite map_length, raster_length; nia).
  rewrite nth_stack_last.
  - rewrite nth_raster_map by exact Ht. unfold f.
    assert (I := in_shape_unit sh l units u Hl Hu).
    rewrite <- (row_major_unit sh l units u Hl Hu).
    transitivity (entry_at C0 (tf_roll C0 (map Z.of_nat t) (sh ++ [units], bare)) (l ++ [u])).
    { rewrite entry_row_major by exact I. reflexivity. }
    assert (Lt : length (map Z.of_nat t) = length sh) by (rewrite map_length; now apply in_shape_length).
    unfold tf_roll. cbn [fst]. rewrite entry_rearrange by exact I. rewrite rolled_unit by assumption.
    assert (I' := rolled_in sh (map Z.of_nat t) l Hl).
    rewrite entry_row_major by (cbn [fst]; now apply in_shape_unit). cbn [fst snd]. now rewrite row_major_unit.
  - rewrite map_length, raster_length. lia.
  - assert (hd [] (map f (raster sh)) = f (hd [] (raster sh))) as ->.
    { assert (R := raster_length sh). destruct (raster sh); [cbn in R; lia|reflexivity]. }
    rewrite Lf. nia.
Qed.

Lemma bias_entry sh units bare t u : in_shape sh t -> length bare = units -> u < units ->
  nth (u * length (raster sh) + row_major sh t) (translation_bias sh bare) C0 = nth u bare C0.
Proof.
  intros Ht Lb Hu. unfold translation_bias. change (number_of_visible sh) with (volume sh). assert (V := row_major_lt sh t Ht).
  rewrite raster_length. replace (volume sh) with (length (repeat bare (volume sh))) at 1 by apply repeat_length.
  rewrite nth_stack_last.
  - f_equal. now apply nth_repeat_lt.
  - now rewrite repeat_length.
  - destruct (volume sh); [lia|]. cbn. lia.
Qed.

Lemma dot_row_length units x k : length (dot_row units x k) = units.
Proof. unfold dot_row, range. now rewrite map_length, seq_length. Qed.

Lemma translation_bias_length sh bare : 0 < volume sh -> length (translation_bias sh bare) = length bare * length (raster sh).
Proof.
  intros V. unfold translation_bias. change (number_of_visible sh) with (volume sh). rewrite stack_last_length, repeat_length, raster_length.
  destruct (volume sh); [lia|reflexivity].
Qed.

Lemma Csum_range_raster sh (f : nat -> C) : Csum f (range (volume sh)) = Csum (fun l => f (row_major sh l)) (raster sh).
Proof. rewrite <- raster_row_major. apply Csum_map. Qed.

Lemma Csum_unit {A} (f : A -> C) l : Csum (fun z => z) (map f l) = Csum f l.
Proof. exact (Csum_map f (fun z => z) l). Qed.

Lemma translation_dense_ok sh units bare bias act x : 0 < volume sh -> length x = volume sh -> length bias = units ->
  translation_dense_call sh units bare (Some bias) (Some act) x =
  map (fun j => act (Csum (fun v => Cmult (nth v x C0) (nth (v * (units * length (raster sh)) + j) (translation_kernel sh units bare) C0))
                          (range (volume sh)) + nth j (translation_bias sh bias) C0)%C) (range (units * length (raster sh))).
Proof.
  intros V L Lb. unfold translation_dense_call, dense_call. cbn [option_map].
  assert (LB : length (translation_bias sh bias) = units * length (raster sh)) by now rewrite translation_bias_length, Lb.
  apply (list_ext_nth C0).
  - rewrite !map_length, Base.map2_length, dot_row_length, LB. unfold range. rewrite seq_length. lia.
  - intros j Hj. rewrite map_length, Base.map2_length, dot_row_length, LB, Nat.min_id in Hj.
    rewrite (nth_map_in _ _ _ C0 C0) by (rewrite Base.map2_length, dot_row_length; lia).
    rewrite (nth_map_in _ _ _ C0 0) by (unfold range; rewrite seq_length; lia).
    rewrite !nth_range by lia. f_equal.
    rewrite (nth_error_map2' _ _ _ C0 C0) by (rewrite ?dot_row_length; lia). f_equal.
    unfold dot_row. rewrite (nth_map_in _ _ _ C0 0) by (unfold range; rewrite seq_length; lia).
    rewrite !nth_range by lia. now rewrite L.
Qed.

Lemma translated_sum sh (f : loc -> C) t : length t = length sh ->
  Csum (fun l => f (shifted sh t l)) (raster sh) = Csum f (raster sh).
Proof.
  intros Lt. rewrite <- (Csum_map (shifted sh t) f). apply Csum_perm.
  apply raster_bijection; [lia|intros; now apply shifted_in|intros; eapply shifted_inj; eauto].
Qed.

Lemma to_complex_nth s i : nth i (to_complex s) C0 = RtoC (IZR (nth i s 0%Z)).
Proof. exact (map_nth (fun v => RtoC (IZR v)) s 0%Z i). Qed.

Lemma rbm_sym_formula sh alpha bare bias a s : 0 < volume sh -> length s = volume sh -> length bias = alpha ->
  rbm_sym sh alpha bare bias [a] s =
  (a * Csum (fun v => RtoC (IZR v)) s +
   Csum (fun u => Csum (fun t => lncosh (nth u bias C0 +
     Csum (fun l => RtoC (IZR (nth (row_major sh (shifted sh t l)) s 0%Z)) * nth (row_major sh l * alpha + u) bare C0) (raster sh))) (raster sh)) (range alpha))%C.
Proof.
  intros V L Lb. unfold rbm_sym. rewrite (translation_dense_ok sh alpha bare bias) by (auto; unfold to_complex; now rewrite map_length).
  rewrite Csum_unit, range_product, Csum_flat_map. f_equal.
  - cbn. unfold to_complex. rewrite Csum_map. cbn. ring.
  - apply Csum_ext. intros u Hu. unfold range in Hu. apply in_seq in Hu. rewrite Csum_map.
    replace (range (length (raster sh))) with (range (volume sh)) by now rewrite raster_length.
    rewrite (Csum_range_raster sh). apply Csum_ext. intros t Ht. apply in_raster in Ht.
    rewrite (bias_entry sh alpha) by (auto; lia). f_equal. rewrite (C_ring.(Radd_comm)). f_equal.
    rewrite Csum_range_raster.
    rewrite <- (translated_sum sh _ t (in_shape_length _ _ Ht)).
    apply Csum_ext. intros l Hl. apply in_raster in Hl. assert (Lt := in_shape_length _ _ Ht).
    rewrite kernel_entry by (auto using shifted_in; lia). rewrite rolled_shifted by assumption. now rewrite to_complex_nth.
Qed.

Lemma shifted_shifted sh : forall t u l, length t = length sh -> length u = length sh -> in_shape sh l ->
  shifted sh (shifted sh t u) l = shifted sh t (shifted sh u l).
Proof.
  induction sh as [|n sh IH]; intros [|t ts] [|u us] l H1 H2 H; inversion H as [|i ? l' ? Hi T]; subst; try discriminate; cbn [shifted]; [reflexivity|].
  f_equal; [|apply IH; auto].
  rewrite Nat.add_mod_idemp_r, Nat.add_mod_idemp_l by lia. f_equal. lia.
Qed.

Lemma Csum_Zperm s s' : Permutation s s' -> Csum (fun v => RtoC (IZR v)) s = Csum (fun v => RtoC (IZR v)) s'.
Proof. apply Csum_perm. Qed.

Lemma config_as_map sh (s : list Z) : length s = volume sh -> s = map (fun l => nth (row_major sh l) s 0%Z) (raster sh).
Proof.
  intros L. apply (list_ext_nth 0%Z); [now rewrite map_length, raster_length|]. intros i Hi. rewrite L in Hi.
  rewrite <- (row_major_location sh i Hi). rewrite nth_raster_map by now apply location_in. reflexivity.
Qed.

Lemma translated_perm sh t x y : length x = volume sh -> translated sh t x y -> Permutation y x.
Proof.
  intros L (Lt & Ly & E). rewrite (config_as_map sh y Ly), (config_as_map sh x L).
  rewrite (map_ext_in (fun l => nth (row_major sh l) x 0%Z) (fun l => nth (row_major sh (shifted sh t l)) y 0%Z)).
  - rewrite <- (map_map (shifted sh t) (fun l => nth (row_major sh l) y 0%Z)). apply Permutation_map. apply Permutation_sym.
    apply raster_bijection; [lia|intros; now apply shifted_in|intros; eapply shifted_inj; eauto].
  - intros l Hl. apply in_raster in Hl. symmetry. now apply E.
Qed.

Lemma rbm_sym_translated sh alpha bare bias a t s s' : 0 < volume sh -> length s = volume sh -> length bias = alpha -> translated sh t s s' ->
  rbm_sym sh alpha bare bias [a] s' = rbm_sym sh alpha bare bias [a] s.
Proof.
  intros V L Lb T. assert (T' := T). destruct T' as (Lt & L' & E).
  rewrite !rbm_sym_formula by assumption. f_equal.
  - f_equal. apply Csum_Zperm. now apply (translated_perm sh t).
  - apply Csum_ext. intros u _.
    match goal with |- Csum ?f _ = Csum ?g _ => transitivity (Csum (fun r => f (shifted sh t r)) (raster sh));
      [symmetry; apply (translated_sum sh f t Lt)|] end.
    apply Csum_ext. intros r Hr. apply in_raster in Hr. assert (Lr := in_shape_length _ _ Hr). f_equal. f_equal. apply Csum_ext. intros l Hl. apply in_raster in Hl.
      rewrite shifted_shifted by assumption. rewrite E by (now apply shifted_in). reflexivity.
Qed.

(** * RBM without symmetry *)
Lemma rbm_formula alpha kernel bias visible s : length bias = alpha * length s ->
  rbm alpha kernel bias visible s =
  (Csum (fun v => RtoC (IZR (nth v s 0%Z)) * nth v visible C0) (range (length s)) +
   Csum (fun j => lncosh (nth j bias C0 + Csum (fun v => RtoC (IZR (nth v s 0%Z)) * nth (v * (alpha * length s) + j) kernel C0) (range (length s))))
        (range (alpha * length s)))%C.
Proof.
  intros Lb. unfold rbm, dense_call. assert (Lx : length (to_complex s) = length s) by apply map_length. rewrite Lx. f_equal.
  - unfold dot_row. cbn [range seq map nth]. rewrite Lx. apply Csum_ext. intros v _. rewrite to_complex_nth, Nat.mul_1_r, Nat.add_0_r. reflexivity.
  - replace (map2 Cplus (dot_row (alpha * length s) (to_complex s) kernel) bias) with
      (map (fun j => nth j bias C0 + Csum (fun v => RtoC (IZR (nth v s 0%Z)) * nth (v * (alpha * length s) + j) kernel C0) (range (length s)))%C (range (alpha * length s))).
    + rewrite map_map. apply Csum_unit.
    + apply (list_ext_nth C0).
      * rewrite Base.map2_length, dot_row_length, map_length. unfold range. rewrite seq_length. lia.
      * intros j Hj. unfold range in Hj. rewrite map_length, seq_length in Hj.
        rewrite (nth_map_in _ _ _ C0 0) by (unfold range; rewrite seq_length; lia).
        rewrite (nth_error_map2' _ _ _ C0 C0) by (rewrite ?dot_row_length; lia).
        unfold dot_row. rewrite (nth_map_in _ _ _ C0 0) by (unfold range; rewrite seq_length; lia).
        rewrite !nth_range by lia. rewrite (C_ring.(Radd_comm)). f_equal.
        rewrite Lx. apply Csum_ext. intros v _. now rewrite to_complex_nth.
Qed.
