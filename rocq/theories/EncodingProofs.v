(** Proofs about splitting an axis in two halves and about one-hot encodings. *)
From Coq Require Import List ZArith Arith Bool Reals Lia Lra.
From Verif Require Import Base Cplx OrderingModel OrderingSpec OrderingProofs TensorModel AutoregressiveModel LatticeSpec MachinesProofs
  RbmProofs WeightNormProofs EncodingModel EncodingSpec.
Import ListNotations.

(** * Splitting an axis *)

Definition split_at (p m : nat) (sh : list nat) : list nat := firstn p sh ++ 2 :: m :: skipn (S p) sh.

Lemma volume_cons n sh : volume (n :: sh) = n * volume sh. Proof. reflexivity. Qed.
Lemma volume_split sh m : forall p, p < length sh -> nth p sh 0 = 2 * m -> volume (split_at p m sh) = volume sh.
Proof.
  induction sh as [|n sh IH]; intros p P N; cbn [length] in P; [lia|]. destruct p as [|p]; unfold split_at in *.
  - cbn [firstn app skipn nth] in *. rewrite !volume_cons, N. lia.
  - cbn [firstn app nth] in *. change (skipn (S (S p)) (n :: sh)) with (skipn (S p) sh). rewrite !volume_cons, IH by (auto; lia). reflexivity.
Qed.
Lemma row_major_split sh m : forall p l c, p < length sh -> nth p sh 0 = 2 * m -> in_shape (upd sh p m) l -> c < 2 ->
  row_major (split_at p m sh) (insert_nth p c l) = row_major sh (upd l p (c * m + nth p l 0)).
Proof.
  induction sh as [|n sh IH]; intros p l c P N I Hc; cbn [length] in P; [lia|]. destruct p as [|p]; unfold split_at, insert_nth in *.
  - cbn [upd] in I. inversion I as [|i ? l' ? Hi T]; subst. cbn [firstn app skipn nth upd row_major] in *. rewrite !volume_cons. nia.
  - cbn [upd] in I. inversion I as [|i ? l' ? Hi T]; subst. cbn [firstn app nth upd] in *.
    change (skipn (S (S p)) (n :: sh)) with (skipn (S p) sh). change (skipn (S p) (i :: l')) with (skipn p l'). cbn [row_major].
    rewrite IH by (auto; lia). pose proof (volume_split sh m p ltac:(lia) N) as V. unfold split_at in V. rewrite V. reflexivity.
Qed.
Lemma in_split sh m : forall p l c, p < length sh -> in_shape (upd sh p m) l -> c < 2 -> in_shape (split_at p m sh) (insert_nth p c l).
Proof.
  induction sh as [|n sh IH]; intros p l c P I Hc; cbn [length] in P; [lia|]. destruct p as [|p]; unfold split_at, insert_nth in *.
  - cbn [upd] in I. inversion I as [|i ? l' ? Hi T]; subst. cbn [firstn app skipn]. constructor; [exact Hc|]. constructor; assumption.
  - cbn [upd] in I. inversion I as [|i ? l' ? Hi T]; subst. cbn [firstn app]. change (skipn (S (S p)) (n :: sh)) with (skipn (S p) sh).
    change (skipn (S p) (i :: l')) with (skipn p l'). constructor; [exact Hi|]. apply IH; auto; lia.
Qed.
Lemma row_major_split_back sh m : forall p l c, p < length sh -> nth p sh 0 = 2 * m -> in_shape (upd sh p 2) l -> c < m ->
  row_major (split_at p m sh) (insert_nth (S p) c l) = row_major sh (upd l p (nth p l 0 * m + c)).
Proof.
  induction sh as [|n sh IH]; intros p l c P N I Hc; cbn [length] in P; [lia|]. destruct p as [|p]; unfold split_at, insert_nth in *.
  - cbn [upd] in I. inversion I as [|i ? l' ? Hi T]; subst. cbn [firstn app skipn nth upd row_major] in *. rewrite !volume_cons. nia.
  - cbn [upd] in I. inversion I as [|i ? l' ? Hi T]; subst. change (firstn (S p) (n :: sh)) with (n :: firstn p sh).
    change (firstn (S (S p)) (i :: l')) with (i :: firstn (S p) l'). cbn [app nth upd] in *.
    change (skipn (S (S p)) (n :: sh)) with (skipn (S p) sh). change (skipn (S (S p)) (i :: l')) with (skipn (S p) l'). cbn [row_major].
    rewrite IH by (auto; lia). pose proof (volume_split sh m p ltac:(lia) N) as V. unfold split_at in V. rewrite V. reflexivity.
Qed.
Lemma in_split_back sh m : forall p l c, p < length sh -> in_shape (upd sh p 2) l -> c < m -> in_shape (split_at p m sh) (insert_nth (S p) c l).
Proof.
  induction sh as [|n sh IH]; intros p l c P I Hc; cbn [length] in P; [lia|]. destruct p as [|p]; unfold split_at, insert_nth in *.
  - cbn [upd] in I. inversion I as [|i ? l' ? Hi T]; subst. cbn [firstn app skipn]. constructor; [exact Hi|]. constructor; assumption.
  - cbn [upd] in I. inversion I as [|i ? l' ? Hi T]; subst. change (firstn (S p) (n :: sh)) with (n :: firstn p sh).
    change (firstn (S (S p)) (i :: l')) with (i :: firstn (S p) l'). cbn [app].
    change (skipn (S (S p)) (n :: sh)) with (skipn (S p) sh). change (skipn (S (S p)) (i :: l')) with (skipn (S p) l').
    constructor; [exact Hi|]. apply IH; auto; lia.
Qed.
Lemma in_upd_two sh m : forall p l c, p < length sh -> nth p sh 0 = 2 * m -> in_shape (upd sh p m) l -> c < 2 ->
  in_shape sh (upd l p (c * m + nth p l 0)).
Proof.
  induction sh as [|n sh IH]; intros p l c P N I Hc; cbn [length] in P; [lia|]. destruct p as [|p].
  - cbn [upd] in I. inversion I as [|i ? l' ? Hi T]; subst. cbn [nth upd] in *. constructor; [nia|exact T].
  - cbn [upd] in I. inversion I as [|i ? l' ? Hi T]; subst. cbn [nth upd] in *. constructor; [exact Hi|]. apply IH; auto; lia.
Qed.
Lemma in_upd_two_back sh m : forall p l c, p < length sh -> nth p sh 0 = 2 * m -> in_shape (upd sh p 2) l -> c < m ->
  in_shape sh (upd l p (nth p l 0 * m + c)).
Proof.
  induction sh as [|n sh IH]; intros p l c P N I Hc; cbn [length] in P; [lia|]. destruct p as [|p].
  - cbn [upd] in I. inversion I as [|i ? l' ? Hi T]; subst. cbn [nth upd] in *. constructor; [nia|exact T].
  - cbn [upd] in I. inversion I as [|i ? l' ? Hi T]; subst. cbn [nth upd] in *. constructor; [exact Hi|]. apply IH; auto; lia.
Qed.

Lemma reshape_value {V} (x : tensor V) ns l l' : in_shape ns l -> in_shape (tshape x) l' -> row_major ns l = row_major (tshape x) l' ->
  tval (reshape ns x) l = tval x l'.
Proof. intros I I' E. cbn [reshape tval]. rewrite (flat_loop_acc _ _ _ I), Nat.mul_0_l, Nat.add_0_l, E, unravel_row_major; auto. Qed.

Lemma remove_split sh m p : p < length sh -> remove_nth p (split_at p m sh) = upd sh p m.
Proof.
  intros P. unfold remove_nth, split_at. rewrite firstn_app, firstn_firstn, Nat.min_id, firstn_length_le, Nat.sub_diag by lia. cbn [firstn]. rewrite app_nil_r.
  rewrite skipn_app, firstn_length_le by lia. rewrite (skipn_all2 (firstn p sh)) by (rewrite firstn_length_le; lia).
  replace (S p - p) with 1 by lia. cbn [skipn app]. now rewrite TopologyProofs.upd_firstn_skipn by lia.
Qed.
Lemma remove_split_back sh m p : p < length sh -> remove_nth (S p) (split_at p m sh) = upd sh p 2.
Proof.
  intros P. unfold remove_nth, split_at. rewrite firstn_app, firstn_length_le by lia. rewrite (firstn_all2 (firstn p sh)) by (rewrite firstn_length_le; lia).
  rewrite skipn_app, firstn_length_le by lia. rewrite (skipn_all2 (firstn p sh)) by (rewrite firstn_length_le; lia).
  replace (S p - p) with 1 by lia. replace (S (S p) - p) with 2 by lia. cbn [firstn skipn app]. rewrite <- app_assoc. cbn [app].
  now rewrite TopologyProofs.upd_firstn_skipn by lia.
Qed.
Lemma nth_split sh m p : p < length sh -> nth p (split_at p m sh) 0 = 2 /\ nth (S p) (split_at p m sh) 0 = m.
Proof.
  intros P. unfold split_at. rewrite !app_nth2 by (rewrite firstn_length_le; lia). rewrite firstn_length_le by lia. rewrite Nat.sub_diag.
  replace (S p - p) with 1 by lia. split; reflexivity.
Qed.

(** * The static shape *)

Lemma describes_length static sh : describes static sh -> length static = length sh.
Proof. destruct static, sh; cbn; try tauto. intros [_ ->]. now rewrite map_length. Qed.
Lemma describes_nth static sh p : describes static sh -> 0 < p < length sh -> nth p static None = Some (nth p sh 0).
Proof.
  destruct static as [|o known], sh as [|b sizes]; cbn [describes]; try tauto. intros [_ ->] P. destruct p as [|p]; [lia|]. cbn [nth length] in *.
  rewrite (nth_indep _ None (Some 0)) by (rewrite map_length; lia). apply map_nth.
Qed.
Lemma all_known_some l : all_known (map Some l) = Ok l.
Proof. induction l as [|n l IH]; [reflexivity|]. cbn [map all_known]. now rewrite IH. Qed.
Lemma describes_split static sh p m : describes static sh -> 0 < p < length sh ->
  all_known (tl (firstn p static ++ [Some 2; Some m] ++ skipn (S p) static)) = Ok (tl (split_at p m sh)).
Proof.
  destruct static as [|o known], sh as [|b sizes]; cbn [describes]; try tauto. intros [_ ->] P. destruct p as [|p]; [lia|]. unfold split_at.
  change (skipn (S (S p)) (o :: map Some sizes)) with (skipn (S p) (map Some sizes)). change (skipn (S (S p)) (b :: sizes)) with (skipn (S p) sizes).
  cbn [firstn app tl]. rewrite firstn_map, skipn_map. change (Some 2 :: Some m :: map Some (skipn (S p) sizes)) with (map Some (2 :: m :: skipn (S p) sizes)).
  rewrite <- map_app. apply all_known_some.
Qed.
Lemma split_hd sh m p : 0 < p < length sh -> split_at p m sh = hd 0 sh :: tl (split_at p m sh).
Proof. destruct sh as [|b sizes], p as [|p]; cbn [length]; try lia. reflexivity. Qed.

Lemma reshape_infer_split {V} (x : tensor V) p m : 0 < p < length (tshape x) -> nth p (tshape x) 0 = 2 * m -> 0 < volume (tl (tshape x)) ->
  reshape_infer (tl (split_at p m (tshape x))) x = Ok (reshape (split_at p m (tshape x)) x).
Proof.
  intros P N Vp.
  assert (T : volume (tl (split_at p m (tshape x))) = volume (tl (tshape x))).
  { destruct (tshape x) as [|b sizes]; cbn [length] in P; [lia|]. destruct p as [|p]; [lia|]. cbn [tl]. unfold split_at. cbn [firstn app tl].
    change (skipn (S (S p)) (b :: sizes)) with (skipn (S p) sizes). apply volume_split; [lia|exact N]. }
  unfold reshape_infer. rewrite T. destruct (Nat.eqb_spec (volume (tl (tshape x))) 0); [lia|].
  destruct (tshape x) as [|b sizes] eqn:Sx; cbn [length] in P; [lia|]. cbn [tl] in *. rewrite volume_cons, Nat.mod_mul, Nat.div_mul by lia. cbn [negb Nat.eqb].
  rewrite (split_hd (b :: sizes) m p) by (cbn [length]; lia). reflexivity.
Qed.

Lemma vtc_result axis static x p m : describes static (tshape x) -> 0 < p < length (tshape x) ->
  axis = Z.of_nat p \/ axis = (-1)%Z /\ S p = length (tshape x) -> nth p (tshape x) 0 = 2 * m -> 0 < volume (tl (tshape x)) ->
  exists y, vector_to_complex_number axis static x = Ok y /\ tshape y = upd (tshape x) p m /\
    forall l, in_shape (upd (tshape x) p m) l -> tval y l = (tval x l, tval x (upd l p (nth p l 0 + m))).
Proof.
  intros D P A N Vp. unfold vector_to_complex_number. rewrite (describes_length _ _ D).
  assert (E : (if (axis =? -1)%Z then (Z.of_nat (length (tshape x)) - 1)%Z else axis) = Z.of_nat p) by (destruct A as [->|[-> L]]; [destruct (Z.eqb_spec (Z.of_nat p) (-1))|rewrite Z.eqb_refl]; lia).
  rewrite E. destruct (Z.ltb_spec (Z.of_nat p) 0); [lia|]. destruct (Z.ltb_spec (Z.of_nat p) 0); [lia|]. destruct (Z.leb_spec (Z.of_nat (length (tshape x))) (Z.of_nat p)); [lia|].
  cbn [orb]. rewrite Nat2Z.id, (describes_nth _ _ _ D P), N.
  replace (2 * m mod 2) with 0 by (rewrite Nat.mul_comm; symmetry; apply Nat.mod_mul; lia). replace (2 * m / 2) with m by (rewrite Nat.mul_comm, Nat.div_mul; lia).
  cbn [negb Nat.eqb]. rewrite (describes_split _ _ _ _ D P). cbn [bind]. rewrite (reshape_infer_split x p m P N Vp). cbn [bind].
  unfold unstack_pair, unstack. change (tshape (reshape (split_at p m (tshape x)) x)) with (split_at p m (tshape x)). rewrite (proj1 (nth_split (tshape x) m p ltac:(lia))). cbn [range seq map bind fst snd].
  eexists. split; [reflexivity|]. cbn [tf_complex tshape tval]. rewrite remove_split by lia. split; [reflexivity|]. intros l I.
  assert (Q : forall c, c < 2 -> tval (reshape (split_at p m (tshape x)) x) (insert_nth p c l) = tval x (upd l p (c * m + nth p l 0))).
  { intros c Hc. apply reshape_value; [apply in_split; auto; lia|apply in_upd_two; auto; lia|apply row_major_split; auto; lia]. }
  rewrite (Q 0), (Q 1) by lia. f_equal.
  - rewrite Nat.mul_0_l, Nat.add_0_l, TopologyProofs.upd_same_value. reflexivity.
  - f_equal. f_equal. lia.
Qed.

Lemma vtc_empty axis static x p : describes static (tshape x) -> 0 < p < length (tshape x) -> axis = Z.of_nat p \/ axis = (Z.of_nat p - Z.of_nat (length (tshape x)))%Z ->
  nth p (tshape x) 0 mod 2 = 0 -> volume (tl (tshape x)) = 0 -> vector_to_complex_number axis static x = Err ValueError.
Proof.
  intros D P A N Vp. unfold vector_to_complex_number. rewrite (describes_length _ _ D).
  set (ax := if (axis =? -1)%Z then _ else axis). assert (E : (if (ax <? 0)%Z then (ax + Z.of_nat (length (tshape x)))%Z else ax) = Z.of_nat p).
  { unfold ax. destruct (Z.eqb_spec axis (-1)); [destruct (Z.ltb_spec (Z.of_nat (length (tshape x)) - 1) 0); lia|destruct (Z.ltb_spec axis 0); lia]. }
  rewrite E. destruct (Z.ltb_spec (Z.of_nat p) 0); [lia|]. destruct (Z.leb_spec (Z.of_nat (length (tshape x))) (Z.of_nat p)); [lia|].
  cbn [orb]. rewrite Nat2Z.id, (describes_nth _ _ _ D P), N. cbn [negb Nat.eqb]. rewrite (describes_split _ _ _ _ D P). cbn [bind].
  set (m := nth p (tshape x) 0 / 2). assert (M : nth p (tshape x) 0 = 2 * m) by (unfold m; apply Nat.div_exact; [lia|exact N]).
  assert (T : volume (tl (split_at p m (tshape x))) = volume (tl (tshape x))).
  { destruct (tshape x) as [|b sizes]; cbn [length] in P; [lia|]. destruct p as [|p]; [lia|]. cbn [tl]. unfold split_at. cbn [firstn app tl].
    change (skipn (S (S p)) (b :: sizes)) with (skipn (S p) sizes). apply volume_split; [lia|exact M]. }
  unfold reshape_infer. rewrite T, Vp. reflexivity.
Qed.

Lemma vtc_negative axis static x p m : describes static (tshape x) -> 0 < p < length (tshape x) ->
  axis = (Z.of_nat p - Z.of_nat (length (tshape x)))%Z -> axis <> (-1)%Z -> nth p (tshape x) 0 = 2 * m -> 0 < volume (tl (tshape x)) ->
  if m =? 2 then
    exists y, vector_to_complex_number axis static x = Ok y /\ tshape y = upd (tshape x) p 2 /\
      forall l, in_shape (upd (tshape x) p 2) l -> tval y l = (tval x (upd l p (nth p l 0 * 2)), tval x (upd l p (nth p l 0 * 2 + 1)))
  else vector_to_complex_number axis static x = Err ValueError.
Proof.
  intros D P A B N Vp. unfold vector_to_complex_number. rewrite (describes_length _ _ D).
  destruct (Z.eqb_spec axis (-1)); [contradiction|]. destruct (Z.ltb_spec axis 0); [|lia].
  replace (axis + Z.of_nat (length (tshape x)))%Z with (Z.of_nat p) by lia.
  destruct (Z.ltb_spec (Z.of_nat p) 0); [lia|]. destruct (Z.leb_spec (Z.of_nat (length (tshape x))) (Z.of_nat p)); [lia|].
  cbn [orb]. rewrite Nat2Z.id, (describes_nth _ _ _ D P), N.
  replace (2 * m mod 2) with 0 by (rewrite Nat.mul_comm; symmetry; apply Nat.mod_mul; lia). replace (2 * m / 2) with m by (rewrite Nat.mul_comm, Nat.div_mul; lia).
  cbn [negb Nat.eqb]. rewrite (describes_split _ _ _ _ D P). cbn [bind]. rewrite (reshape_infer_split x p m P N Vp). cbn [bind].
  unfold unstack_pair, unstack. change (tshape (reshape (split_at p m (tshape x)) x)) with (split_at p m (tshape x)). rewrite (proj2 (nth_split (tshape x) m p ltac:(lia))). destruct (Nat.eqb_spec m 2) as [->|M].
  - cbn [range seq map bind fst snd]. eexists. split; [reflexivity|]. cbn [tf_complex tshape tval]. rewrite remove_split_back by lia. split; [reflexivity|]. intros l I.
    assert (Q : forall c, c < 2 -> tval (reshape (split_at p 2 (tshape x)) x) (insert_nth (S p) c l) = tval x (upd l p (nth p l 0 * 2 + c))).
    { intros c Hc. apply reshape_value; [apply in_split_back; auto; lia|apply in_upd_two_back; auto; lia|apply row_major_split_back; auto; lia]. }
    rewrite (Q 0), (Q 1) by lia. now rewrite Nat.add_0_r.
  - destruct m as [|[|[|m]]]; try lia; reflexivity.
Qed.

Lemma vtc_odd axis static x p : describes static (tshape x) -> 0 < p < length (tshape x) ->
  axis = Z.of_nat p \/ axis = (Z.of_nat p - Z.of_nat (length (tshape x)))%Z -> nth p (tshape x) 0 mod 2 = 1 ->
  vector_to_complex_number axis static x = Err AssertionError.
Proof.
  intros D P A N. unfold vector_to_complex_number. rewrite (describes_length _ _ D).
  set (a := if (axis =? -1)%Z then _ else _).
  assert (Ea : (if (a <? 0)%Z then (a + Z.of_nat (length (tshape x)))%Z else a) = Z.of_nat p).
  { unfold a. destruct (Z.eqb_spec axis (-1)); [destruct (Z.ltb_spec (Z.of_nat (length (tshape x)) - 1) 0)|destruct (Z.ltb_spec axis 0)]; lia. }
  rewrite Ea. destruct (Z.ltb_spec (Z.of_nat p) 0); [lia|]. destruct (Z.leb_spec (Z.of_nat (length (tshape x))) (Z.of_nat p)); [lia|].
  cbn [orb]. rewrite Nat2Z.id, (describes_nth _ _ _ D P), N. reflexivity.
Qed.

Lemma all_known_none l : In None l -> all_known l = Err TypeError.
Proof. induction l as [|[n|] l IH]; cbn [In all_known]; [tauto| |reflexivity]. intros [H|H]; [discriminate|]. now rewrite IH. Qed.

Lemma vtc_unknown axis static x p q : 0 < p < length static -> axis = Z.of_nat p \/ axis = (Z.of_nat p - Z.of_nat (length static))%Z ->
  0 < q < length static -> nth q static None = None -> (forall n, nth p static None = Some n -> n mod 2 = 0) ->
  vector_to_complex_number axis static x = Err TypeError.
Proof.
  intros P A Q U N. unfold vector_to_complex_number. set (a := if (axis =? -1)%Z then _ else _).
  assert (Ea : (if (a <? 0)%Z then (a + Z.of_nat (length static))%Z else a) = Z.of_nat p).
  { unfold a. destruct (Z.eqb_spec axis (-1)); [destruct (Z.ltb_spec (Z.of_nat (length static) - 1) 0)|destruct (Z.ltb_spec axis 0)]; lia. }
  rewrite Ea. destruct (Z.ltb_spec (Z.of_nat p) 0); [lia|]. destruct (Z.leb_spec (Z.of_nat (length static)) (Z.of_nat p)); [lia|].
  cbn [orb]. rewrite Nat2Z.id. destruct (nth p static None) as [n|] eqn:Ep; [|reflexivity]. rewrite (N n eq_refl). cbn [Nat.eqb negb].
  rewrite all_known_none; [reflexivity|]. destruct static as [|b t]; [cbn in P; lia|]. destruct p as [|p]; [lia|]. destruct q as [|q]; [lia|].
  cbn [firstn app tl nth skipn length] in *. apply in_or_app. destruct (Nat.lt_trichotomy q p) as [L|[L|L]].
  - left. rewrite <- U. replace (nth q t None) with (nth q (firstn p t) None); [apply nth_In; rewrite firstn_length; lia|].
    rewrite <- (firstn_skipn p t) at 2. rewrite app_nth1; [reflexivity|]. rewrite firstn_length. lia.
  - subst q. congruence.
  - right. right. right. change (match t with [] => [] | _ :: l => skipn p l end) with (skipn (S p) t). rewrite <- U. replace (nth q t None) with (nth (q - S p) (skipn (S p) t) None); [apply nth_In; rewrite skipn_length; lia|].
    rewrite <- (firstn_skipn (S p) t) at 2. rewrite app_nth2; rewrite firstn_length; [|lia]. replace (Nat.min (S p) (length t)) with (S p) by lia. reflexivity.
Qed.

(** * One-hot *)

Lemma nth_one_hot i n c : nth c (tf_one_hot i n) 0%R = if (c <? n) && (i =? Z.of_nat c)%Z then 1%R else 0%R.
Proof.
  unfold tf_one_hot. destruct (Nat.ltb_spec c n) as [H|H]; cbn [andb].
  - rewrite (nth_indep _ 0%R (if (i =? Z.of_nat 0)%Z then 1%R else 0%R)) by (rewrite map_length, range_length; lia).
    rewrite (map_nth (fun c => if (i =? Z.of_nat c)%Z then 1%R else 0%R)). unfold range. now rewrite seq_nth by lia.
  - apply nth_overflow. now rewrite map_length, range_length.
Qed.

Lemma one_hot_entry n (x : tensor Z) l c : tval (one_hot_tensor n x) (l ++ [c]) = if (c <? n) && (tval x l =? Z.of_nat c)%Z then 1%R else 0%R.
Proof. cbn [one_hot_tensor tval]. rewrite last_last, removelast_last. apply nth_one_hot. Qed.

Lemma spin_category s : is_spin s -> ((1 - s) / 2)%Z = Z.of_nat (category s).
Proof. intros [->| ->]; reflexivity. Qed.

Lemma Csum_pick (f : nat -> C) n : forall s j, s <= j < s + n -> Csum (fun i => if j =? i then f i else C0) (seq s n) = f j.
Proof.
  induction n as [|n IH]; intros s j H; [lia|]. cbn [seq]. rewrite Csum_cons. destruct (Nat.eqb_spec j s) as [->|N].
  - rewrite (Csum_ext _ (fun _ => C0)), Csum_zero; [ring|]. intros a Ha. apply in_seq in Ha. destruct (Nat.eqb_spec s a); [lia|reflexivity].
  - rewrite IH by lia. ring.
Qed.

(** Combining with a one-hot tensor whose category at site i of example b is [cat (b :: i)]. *)
Lemma combine_selects n batch sites (x : tensor C) (idx : tensor Z) (cat : list nat -> nat) :
  tshape x = batch :: sites ++ [n] -> tshape idx = batch :: sites ->
  (forall l, in_shape (batch :: sites) l -> tval idx l = Z.of_nat (cat l) /\ cat l < n) ->
  exists y, combine_autoregressive_conditionals x (to_complex (one_hot_tensor n idx)) = Ok y /\ tshape y = [batch; 1] /\
    forall b, b < batch -> tval y [b; 0] = Csum (fun i => tval x (b :: i ++ [cat (b :: i)])) (raster sites).
Proof.
  intros Sx Si Hc. unfold combine_autoregressive_conditionals. cbn [to_complex tshape tval one_hot_tensor]. rewrite Sx, Si. cbn [app].
  destruct (list_eq_dec Nat.eq_dec _ _) as [_|F]; [|exfalso; now apply F].
  eexists. split; [reflexivity|]. cbn [tshape tval]. split; [reflexivity|]. intros b B.
  rewrite raster_snoc, Csum_flat_map. apply Csum_ext. intros i Hi. apply in_raster in Hi. rewrite Csum_map.
  assert (I : in_shape (batch :: sites) (b :: i)) by (constructor; assumption). destruct (Hc _ I) as (Ec & Lc).
  rewrite (Csum_ext _ (fun c => if cat (b :: i) =? c then tval x (b :: i ++ [c]) else C0)).
  - exact (Csum_pick (fun c => tval x (b :: i ++ [c])) n 0 (cat (b :: i)) ltac:(lia)).
  - intros c Hin. apply in_seq in Hin. pose proof (one_hot_entry n idx (b :: i) c) as H. cbn [one_hot_tensor tval app] in H. rewrite H, Ec.
    destruct (Nat.ltb_spec c n); [|lia]. cbn [andb]. destruct (Z.eqb_spec (Z.of_nat (cat (b :: i))) (Z.of_nat c)), (Nat.eqb_spec (cat (b :: i)) c); try lia.
    + change (RtoC 1) with C1. ring.
    + change (RtoC 0) with C0. ring.
Qed.
