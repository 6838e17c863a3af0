(** Lemmas about rearranged arrays: compositions of reversals, transpositions and rolls. *)
From Coq Require Import List ZArith Arith Bool Reals Lia Permutation.
From Verif Require Import Base OrderingModel OrderingSpec OrderingProofs TopologyProofs Cplx AutoregressiveModel IsingModel IsingProofs ObservableModel ComplexModel MachinesProofs
  SymmetryModel SymmetrySpec.
Import ListNotations.

(** Well formed arrays have as many entries as their shape says. *)
Definition good {A} (x : array A) : Prop := length (snd x) = volume (fst x).

Lemma entry_row_major {A} (d : A) (x : array A) l : in_shape (fst x) l -> entry_at d x l = nth (row_major (fst x) l) (snd x) d.
Proof. intros H. unfold entry_at. rewrite flat_loop_acc by exact H. reflexivity. Qed.

Lemma rearrange_good {A} (d : A) shape f x : good (rearrange d shape f x).
Proof. unfold good, rearrange. cbn [fst snd]. rewrite map_length. apply raster_length. Qed.

Lemma nth_raster_map {A} (g : loc -> A) (d : A) shape l : in_shape shape l ->
  nth (row_major shape l) (map g (raster shape)) d = g l.
Proof.
  intros H. assert (L := row_major_lt shape l H).
  destruct (In_nth _ _ (@nil nat) (proj2 (in_raster shape l) H)) as (k & Hk & E).
  assert (row_major shape l = k) as ->.
  { assert (Q := raster_row_major shape). apply (f_equal (fun q => nth k q 0)) in Q.
    rewrite raster_length in Hk. unfold range in Q. rewrite seq_nth in Q by lia.
    rewrite (nth_indep _ 0 (row_major shape [])) in Q by (rewrite map_length, raster_length; lia).
    rewrite map_nth, E in Q. exact Q. }
  rewrite (nth_indep _ d (g [])) by (rewrite map_length; lia). rewrite map_nth, E. reflexivity.
Qed.

Lemma entry_rearrange {A} (d : A) shape f x l : in_shape shape l -> entry_at d (rearrange d shape f x) l = entry_at d x (f l).
Proof.
  intros H. rewrite (entry_row_major d (rearrange d shape f x)) by exact H. cbn [rearrange fst snd].
  now rewrite nth_raster_map.
Qed.

(** An array is determined by its entries. *)
Lemma array_ext {A} (d : A) (x y : array A) : good x -> good y -> fst x = fst y ->
  (forall l, in_shape (fst x) l -> entry_at d x l = entry_at d y l) -> x = y.
Proof.
  destruct x as [s x], y as [s' y]. unfold good. cbn [fst snd]. intros Hx Hy <- E. f_equal.
  apply (list_ext_nth d); [lia|]. intros i Hi. rewrite Hx in Hi.
  assert (I := location_in s i Hi). specialize (E _ I).
  rewrite !entry_row_major in E by exact I. cbn [fst snd] in E. now rewrite row_major_location in E.
Qed.

Lemma rearrange_rearrange {A} (d : A) s1 s2 f g x : (forall l, in_shape s2 l -> in_shape s1 (g l)) ->
  rearrange d s2 g (rearrange d s1 f x) = rearrange d s2 (fun l => f (g l)) x.
Proof.
  intros H. apply (array_ext d); try apply rearrange_good; [reflexivity|]. cbn [fst rearrange].
  intros l Hl. rewrite !entry_rearrange; auto.
Qed.

Lemma rearrange_ext {A} (d : A) s f g x : (forall l, in_shape s l -> f l = g l) -> rearrange d s f x = rearrange d s g x.
Proof.
  intros H. unfold rearrange. f_equal. apply map_ext_in. intros l Hl. apply in_raster in Hl. now rewrite H.
Qed.

Lemma rearrange_id {A} (d : A) x : good x -> rearrange d (fst x) (fun l => l) x = x.
Proof.
  intros G. apply (array_ext d); [apply rearrange_good|exact G|reflexivity|].
  intros l Hl. cbn [fst rearrange] in Hl. now rewrite entry_rearrange.
Qed.

(** * The dihedral group on images *)

Lemma in_shape_2 h w l : in_shape [h; w] l <-> exists i j, l = [i; j] /\ i < h /\ j < w.
Proof.
  split.
  - intros H. inversion H as [|i ? l' ? Hi T]; subst. inversion T as [|j ? l'' ? Hj T']; subst. inversion T'; subst. eauto.
  - intros (i & j & -> & Hi & Hj). repeat constructor; auto.
Qed.

(** Rotation by 90 degrees, and mirror image, as one rearrangement. *)
Definition rot {A} (d : A) (x : array A) : array A :=
  rearrange d (rev (fst x)) (fun l => [nth 1 l 0; nth 1 (fst x) 0 - 1 - nth 0 l 0]) x.
Definition mir {A} (d : A) (x : array A) : array A :=
  rearrange d (fst x) (fun l => [nth 0 l 0; nth 1 (fst x) 0 - 1 - nth 1 l 0]) x.

Lemma rot_shape {A} (d : A) x : fst (rot d x) = rev (fst x). Proof. reflexivity. Qed.
Lemma mir_shape {A} (d : A) x : fst (mir d x) = fst x. Proof. reflexivity. Qed.

Lemma reverse_1_mir {A} (d : A) x : length (fst x) = 2 -> reverse_axis d 1 x = mir d x.
Proof.
  destruct x as [s x]. cbn [fst]. destruct s as [|h [|w [|]]]; try discriminate. intros _.
  apply rearrange_ext. intros l Hl. cbn [fst] in Hl. apply in_shape_2 in Hl. destruct Hl as (i & j & -> & _). reflexivity.
Qed.

Ltac image_op x :=
  let s := fresh "s" in let h := fresh "h" in let w := fresh "w" in
  destruct x as [s x]; cbn [fst]; destruct s as [|h [|w [|]]]; try discriminate; intros _.

(** Equality of rearrangements of an image: compare indices. *)
Ltac same_indices :=
  unfold rot, mir, reverse_axis, transpose; cbn [fst rearrange rev app];
  repeat rewrite rearrange_rearrange by (intros ? Hl; apply in_shape_2 in Hl; destruct Hl as (? & ? & -> & ? & ?);
    apply in_shape_2; cbn [nth upd rev app fst]; eexists _, _; split; [reflexivity|lia]);
  apply rearrange_ext; intros l Hl; apply in_shape_2 in Hl; destruct Hl as (i & j & -> & Hi & Hj); cbn [nth upd rev app fst];
  repeat f_equal; lia.

Lemma rot90_1 {A} (d : A) x : length (fst x) = 2 -> image_rot90 d 1 x = rot d x.
Proof. image_op x. change (image_rot90 d 1 ([h; w], x)) with (transpose d (reverse_axis d 1 ([h; w], x))). same_indices. Qed.
Lemma rot90_2 {A} (d : A) x : length (fst x) = 2 -> image_rot90 d 2 x = rot d (rot d x).
Proof. image_op x. change (image_rot90 d 2 ([h; w], x)) with (reverse_axis d 0 (reverse_axis d 1 ([h; w], x))). same_indices. Qed.
Lemma rot90_3 {A} (d : A) x : length (fst x) = 2 -> image_rot90 d 3 x = rot d (rot d (rot d x)).
Proof. image_op x. change (image_rot90 d 3 ([h; w], x)) with (reverse_axis d 1 (transpose d ([h; w], x))). same_indices. Qed.

Lemma rot_4 {A} (d : A) x : length (fst x) = 2 -> good x -> rot d (rot d (rot d (rot d x))) = x.
Proof.
  intros L G. rewrite <- (rearrange_id d x G) at 2. revert L. clear G. image_op x. same_indices.
Qed.
Lemma mir_mir {A} (d : A) x : length (fst x) = 2 -> good x -> mir d (mir d x) = x.
Proof.
  intros L G. rewrite <- (rearrange_id d x G) at 2. revert L. clear G. image_op x. same_indices.
Qed.
Lemma rot_mir {A} (d : A) x : length (fst x) = 2 -> rot d (mir d x) = mir d (rot d (rot d (rot d x))).
Proof. image_op x. same_indices. Qed.

(** The entry-wise descriptions determine the arrays. *)
Lemma turned_rot h w x y : turned h w x y -> ([w; h], y) = rot 0%Z ([h; w], x).
Proof.
  intros [L E]. apply (array_ext 0%Z); [unfold good; cbn; lia|apply rearrange_good|reflexivity|].
  cbn [fst]. intros l Hl. assert (Hl' := Hl). apply in_shape_2 in Hl'. destruct Hl' as (i & j & -> & Hi & Hj).
  unfold rot. cbn [fst rev app]. rewrite entry_rearrange by exact Hl. cbn [nth].
  rewrite !entry_row_major. 2: { cbn [fst]. apply in_shape_2. eexists _, _. split; [reflexivity|]. lia. } 2: exact Hl.
  specialize (E i j Hi Hj). unfold pixel in E. cbn. rewrite !Nat.mul_1_r, !Nat.add_0_r. exact E.
Qed.

Lemma mirrored_mir h w x y : mirrored h w x y -> ([h; w], y) = mir 0%Z ([h; w], x).
Proof.
  intros [L E]. apply (array_ext 0%Z); [unfold good; cbn; lia|apply rearrange_good|reflexivity|].
  cbn [fst]. intros l Hl. assert (Hl' := Hl). apply in_shape_2 in Hl'. destruct Hl' as (i & j & -> & Hi & Hj).
  unfold mir. cbn [fst rev app]. rewrite entry_rearrange by exact Hl. cbn [nth].
  rewrite !entry_row_major. 2: { cbn [fst]. apply in_shape_2. eexists _, _. split; [reflexivity|]. lia. } 2: exact Hl.
  specialize (E i j Hi Hj). unfold pixel in E. cbn. rewrite !Nat.mul_1_r, !Nat.add_0_r. exact E.
Qed.

Lemma rot_turned h w x : turned h w x (snd (rot 0%Z ([h; w], x))).
Proof.
  split; [unfold rot; rewrite rearrange_good; cbn; lia|]. intros i j Hi Hj.
  assert (E := entry_rearrange 0%Z [w; h] (fun l => [nth 1 l 0; w - 1 - nth 0 l 0]) ([h; w], x) [i; j] ltac:(apply in_shape_2; eauto)).
  rewrite !entry_row_major in E. 3: apply in_shape_2; eauto. 2: { apply in_shape_2. eexists _, _. split; [reflexivity|]. cbn [nth]. lia. }
  unfold pixel. cbn in E. rewrite !Nat.mul_1_r, !Nat.add_0_r in E. exact E.
Qed.

Lemma mir_mirrored h w x : mirrored h w x (snd (mir 0%Z ([h; w], x))).
Proof.
  split; [unfold mir; rewrite rearrange_good; cbn; lia|]. intros i j Hi Hj.
  assert (E := entry_rearrange 0%Z [h; w] (fun l => [nth 0 l 0; w - 1 - nth 1 l 0]) ([h; w], x) [i; j] ltac:(apply in_shape_2; eauto)).
  rewrite !entry_row_major in E. 3: apply in_shape_2; eauto. 2: { apply in_shape_2. eexists _, _. split; [reflexivity|]. cbn [nth]. lia. }
  unfold pixel. cbn in E. rewrite !Nat.mul_1_r, !Nat.add_0_r in E. exact E.
Qed.

Definition eight {A} (d : A) (x : array A) : list (array A) :=
  let r1 := rot d x in let r2 := rot d r1 in let r3 := rot d r2 in
  [x; r1; r2; r3; mir d x; mir d r1; mir d r2; mir d r3].

Ltac find_add := first [apply Add_head | apply Add_cons; find_add].
Ltac permute :=
  lazymatch goal with
  | |- Permutation [] [] => constructor
  | |- Permutation (?a :: _) _ =>
      eapply Permutation_trans; [apply perm_skip | apply Permutation_Add; find_add]; permute
  end.

Lemma eight_rot {A} (d : A) x : length (fst x) = 2 -> good x -> Permutation (eight d (rot d x)) (eight d x).
Proof.
  intros L G. unfold eight. rewrite rot_4 by assumption.
  set (r1 := rot d x). set (r2 := rot d r1). set (r3 := rot d r2).
  generalize (mir d x) (mir d r1) (mir d r2) (mir d r3). intros m0 m1 m2 m3. clearbody r3. clearbody r2. clearbody r1.
  apply Permutation_sym. permute.
Qed.

Lemma rot_good {A} (d : A) x : good (rot d x). Proof. apply rearrange_good. Qed.
Lemma mir_good {A} (d : A) x : good (mir d x). Proof. apply rearrange_good. Qed.
Lemma rot_2d {A} (d : A) x : length (fst x) = 2 -> length (fst (rot d x)) = 2. Proof. intros H. cbn. now rewrite rev_length. Qed.
Lemma mir_2d {A} (d : A) x : length (fst x) = 2 -> length (fst (mir d x)) = 2. Proof. intros H. exact H. Qed.

Lemma eight_mir {A} (d : A) x : length (fst x) = 2 -> good x -> Permutation (eight d (mir d x)) (eight d x).
Proof.
  intros L G. unfold eight.
  set (r1 := rot d x). set (r2 := rot d r1). set (r3 := rot d r2).
  assert (L1 : length (fst r1) = 2) by now apply rot_2d. assert (L2 : length (fst r2) = 2) by now apply rot_2d.
  assert (L3 : length (fst r3) = 2) by now apply rot_2d.
  assert (G1 : good r1) by apply rot_good. assert (G2 : good r2) by apply rot_good. assert (G3 : good r3) by apply rot_good.
  assert (R4 : rot d r3 = x) by now apply rot_4.
  assert (M0 : rot d (mir d x) = mir d r3) by now rewrite rot_mir.
  assert (M3 : rot d (mir d r3) = mir d r2) by (rewrite rot_mir by assumption; now rewrite R4).
  assert (M2 : rot d (mir d r2) = mir d r1) by (rewrite rot_mir by assumption; fold r3; now rewrite R4).
  rewrite M0, M3, M2. rewrite !mir_mir by assumption.
  generalize (mir d x) (mir d r1) (mir d r2) (mir d r3). intros m0 m1 m2 m3. clear. clearbody r3. clearbody r2. clearbody r1.
  permute.
Qed.

(** * Rolls *)

Lemma in_shape_cons n s i l : in_shape (n :: s) (i :: l) <-> i < n /\ in_shape s l.
Proof. split; [intros H; inversion H; auto|intros [? ?]; now constructor]. Qed.

Lemma rolled_in sh : forall ts l, in_shape sh l -> in_shape sh (rolled_loc ts sh l).
Proof.
  induction sh as [|n sh IH]; intros ts l H; inversion H as [|i ? l' ? Hi T]; subst.
  - destruct ts; exact H.
  - destruct ts as [|t ts]; [exact H|]. cbn [rolled_loc]. apply in_shape_cons. split; [|now apply IH].
    assert (0 <= (Z.of_nat i - t) mod Z.of_nat n < Z.of_nat n)%Z by (apply Z.mod_pos_bound; lia). lia.
Qed.

Lemma rolled_rolled sh : forall ts us l, length ts = length us -> in_shape sh l ->
  rolled_loc ts sh (rolled_loc us sh l) = rolled_loc (map2 Z.add ts us) sh l.
Proof.
  induction sh as [|n sh IH]; intros ts us l HL H; inversion H as [|i ? l' ? Hi T]; subst; destruct ts as [|t ts], us as [|u us];
    try discriminate; cbn [rolled_loc map2]; try reflexivity.
  f_equal; [|apply IH; cbn in HL; auto; lia].
  f_equal. rewrite Z2Nat.id by (apply Z.mod_pos_bound; lia).
  rewrite Zminus_mod_idemp_l. f_equal. lia.
Qed.

(** Shifts only matter modulo the shape. *)
Lemma rolled_mod sh : forall ts us l, Forall2 (fun tu n => ((fst tu - snd tu) mod Z.of_nat n = 0)%Z) (combine ts us) sh ->
  length ts = length us -> in_shape sh l -> rolled_loc ts sh l = rolled_loc us sh l.
Proof.
  induction sh as [|n sh IH]; intros ts us l F HL H; inversion H as [|i ? l' ? Hi T]; subst; destruct ts as [|t ts], us as [|u us];
    try discriminate; cbn [combine] in F; inversion F; subst; cbn [rolled_loc]; try reflexivity.
  f_equal; [|apply IH; cbn in HL; auto; lia]. cbn [fst snd] in *.
  f_equal. replace (Z.of_nat i - t)%Z with ((Z.of_nat i - u) + (-1) * (t - u))%Z by lia.
  rewrite <- Zplus_mod_idemp_r. rewrite <- Zmult_mod_idemp_r.
  match goal with E : ((t - u) mod _ = 0)%Z |- _ => rewrite E end. rewrite Z.mul_0_r, Zmod_0_l. now rewrite Z.add_0_r.
Qed.

Lemma shifted_in sh : forall t l, length t = length sh -> in_shape sh l -> in_shape sh (shifted sh t l).
Proof.
  induction sh as [|n sh IH]; intros [|a t] l HL H; inversion H as [|i ? l' ? Hi T]; subst; try discriminate; cbn [shifted]; [constructor|].
  apply in_shape_cons. split; [apply Nat.mod_upper_bound; lia|apply IH; auto].
Qed.

Lemma shifted_length sh : forall t l, length t = length sh -> length l = length sh -> length (shifted sh t l) = length sh.
Proof. induction sh as [|n sh IH]; intros [|a t] [|i l] H1 H2; try discriminate; cbn; auto. Qed.

Lemma rolled_shifted sh : forall t l, length t = length sh -> in_shape sh l -> rolled_loc (map Z.of_nat t) sh (shifted sh t l) = l.
Proof.
  induction sh as [|n sh IH]; intros [|a t] l HL H; inversion H as [|i ? l' ? Hi T]; subst; try discriminate; cbn [shifted rolled_loc map]; [reflexivity|].
  f_equal; [|apply IH; auto].
  rewrite Nat2Z.inj_mod, Nat2Z.inj_add, Zminus_mod_idemp_l.
  replace (Z.of_nat i + Z.of_nat a - Z.of_nat a)%Z with (Z.of_nat i) by lia. rewrite Z.mod_small by lia. lia.
Qed.

Lemma in_shape_length sh l : in_shape sh l -> length l = length sh.
Proof. intros H. induction H; cbn; auto. Qed.

(** Rolling by [i] after rolling by [t] is rolling by [i + t] modulo the shape. *)
Lemma roll_roll {A} (d : A) (x : array A) t i : length t = length (fst x) -> in_shape (fst x) i ->
  tf_roll d (map Z.of_nat i) (tf_roll d (map Z.of_nat t) x) = tf_roll d (map Z.of_nat (shifted (fst x) t i)) x.
Proof.
  intros Lt Hi. assert (Li := in_shape_length _ _ Hi). unfold tf_roll at 1 2. cbn [fst rearrange].
  rewrite rearrange_rearrange by (intros; now apply rolled_in).
  apply rearrange_ext. intros l Hl.
  rewrite rolled_rolled by (rewrite ?map_length; lia || assumption).
  apply rolled_mod; [|rewrite Base.map2_length, !map_length, shifted_length; lia|assumption].
  clear l Hl Li. revert t i Lt Hi. generalize (fst x). clear x.
  induction l as [|n sh IH]; intros [|a t] i Lt Hi; inversion Hi as [|b ? l' ? Hb T]; subst; try discriminate; [constructor|].
  cbn [map map2 shifted combine]. constructor; [|apply IH; auto].
  cbn [fst snd]. rewrite Nat2Z.inj_mod, Nat2Z.inj_add, Zminus_mod_idemp_r.
  replace (Z.of_nat a + Z.of_nat b - (Z.of_nat b + Z.of_nat a))%Z with 0%Z by lia. apply Zmod_0_l.
Qed.

Lemma shifted_rolled sh : forall t l, length t = length sh -> in_shape sh l -> shifted sh t (rolled_loc (map Z.of_nat t) sh l) = l.
Proof.
  induction sh as [|n sh IH]; intros [|a t] l Lt Hl; inversion Hl as [|i ? l' ? Hi T]; subst; try discriminate; [reflexivity|].
  cbn [map rolled_loc shifted]. f_equal; [|apply IH; auto].
  apply Nat2Z.inj. rewrite Nat2Z.inj_mod, Nat2Z.inj_add, Z2Nat.id by (apply Z.mod_pos_bound; lia).
  rewrite Zplus_mod_idemp_l. replace (Z.of_nat i - Z.of_nat a + Z.of_nat a)%Z with (Z.of_nat i) by lia. now rewrite Z.mod_small by lia.
Qed.

Lemma translated_roll sh t x y : length x = volume sh -> translated sh t x y -> (sh, y) = tf_roll 0%Z (map Z.of_nat t) (sh, x).
Proof.
  intros Lx (Lt & Ly & E). unfold tf_roll. cbn [fst].
  transitivity (rearrange 0%Z sh (rolled_loc (map Z.of_nat t) sh) (rearrange 0%Z sh (shifted sh t) (sh, y))).
  - rewrite rearrange_rearrange by (intros; now apply rolled_in).
    rewrite <- (rearrange_id 0%Z (sh, y)) at 1 by exact Ly. cbn [fst]. apply rearrange_ext. intros l Hl.
    symmetry. now apply shifted_rolled.
  - f_equal. apply (array_ext 0%Z); [apply rearrange_good|exact Lx|reflexivity|]. cbn [fst rearrange]. intros l Hl.
    fold (rearrange 0%Z sh (shifted sh t) (sh, y)). rewrite entry_rearrange by exact Hl.
    rewrite !entry_row_major by (cbn; auto using shifted_in). cbn [fst snd]. now apply E.
Qed.

Lemma roll_translated sh t x : length t = length sh -> translated sh t x (snd (tf_roll 0%Z (map Z.of_nat t) (sh, x))).
Proof.
  intros Lt. split; [exact Lt|]. split; [exact (rearrange_good 0%Z sh _ (sh, x))|]. intros l Hl.
  assert (I := shifted_in _ _ _ Lt Hl).
  transitivity (entry_at 0%Z (tf_roll 0%Z (map Z.of_nat t) (sh, x)) (shifted sh t l)).
  - rewrite entry_row_major by exact I. reflexivity.
  - unfold tf_roll. cbn [fst]. rewrite entry_rearrange by exact I. rewrite rolled_shifted by assumption.
    now rewrite entry_row_major.
Qed.

(** A bijection between the locations of two shapes permutes the raster. *)
Lemma raster_bijection sh sh' (f : loc -> loc) : volume sh' <= volume sh ->
  (forall l, in_shape sh l -> in_shape sh' (f l)) ->
  (forall l m, in_shape sh l -> in_shape sh m -> f l = f m -> l = m) ->
  Permutation (map f (raster sh)) (raster sh').
Proof.
  intros V I J. apply NoDup_Permutation_bis.
  - assert (N := raster_NoDup sh). assert (A : forall l, In l (raster sh) -> in_shape sh l) by (intros; now apply in_raster).
    revert N A. generalize (raster sh). induction l as [|a l IH]; intros N A; [constructor|].
    inversion N; subst. cbn [map]. constructor.
    + intros Q. apply in_map_iff in Q. destruct Q as (b & E & Hb).
      apply J in E; [subst; contradiction|apply A; now right|apply A; now left].
    + apply IH; auto. intros; apply A; now right.
  - rewrite map_length, !raster_length. exact V.
  - intros l Hl. apply in_map_iff in Hl. destruct Hl as (m & <- & Hm). apply in_raster. apply I. now apply in_raster.
Qed.

Lemma shifted_inj sh t l m : length t = length sh -> in_shape sh l -> in_shape sh m -> shifted sh t l = shifted sh t m -> l = m.
Proof.
  intros Lt Hl Hm E. rewrite <- (rolled_shifted sh t l Lt Hl), <- (rolled_shifted sh t m Lt Hm). now rewrite E.
Qed.

Lemma rolls_of_roll {A B} (d : A) (g : array A -> B) (x : array A) t : length t = length (fst x) ->
  Permutation (map (fun i => g (tf_roll d (map Z.of_nat i) (tf_roll d (map Z.of_nat t) x))) (raster (fst x)))
              (map (fun i => g (tf_roll d (map Z.of_nat i) x)) (raster (fst x))).
Proof.
  intros Lt. rewrite (map_ext_in _ (fun i => g (tf_roll d (map Z.of_nat (shifted (fst x) t i)) x))).
  - rewrite <- (map_map (shifted (fst x) t) (fun i => g (tf_roll d (map Z.of_nat i) x))). apply Permutation_map.
    apply raster_bijection; [lia|intros; now apply shifted_in|intros; eapply shifted_inj; eauto].
  - intros i Hi. apply in_raster in Hi. now rewrite roll_roll.
Qed.

Definition unturned (h w : nat) (l : loc) : loc := [nth 1 l 0; Nat.modulo (w - nth 0 l 0) w].
Definition unmirrored (h w : nat) (l : loc) : loc := [nth 0 l 0; Nat.modulo (w - nth 1 l 0) w].

Lemma back_index w i a : i < w -> a < w ->
  Z.to_nat ((Z.of_nat (w - 1 - i) - Z.of_nat (Nat.modulo (w - a) w)) mod Z.of_nat w) =
  w - 1 - Z.to_nat ((Z.of_nat i - Z.of_nat a) mod Z.of_nat w).
Proof.
  intros Hi Ha.
  assert (E : (Z.of_nat (Nat.modulo (w - a) w) = (- Z.of_nat a) mod Z.of_nat w)%Z).
  { rewrite Nat2Z.inj_mod, Nat2Z.inj_sub by lia. replace (Z.of_nat w - Z.of_nat a)%Z with (- Z.of_nat a + 1 * Z.of_nat w)%Z by lia.
    apply Z_mod_plus_full. }
  rewrite E, Zminus_mod_idemp_r.
  destruct (le_lt_dec a i) as [L|L].
  - rewrite (Z.mod_small (Z.of_nat i - Z.of_nat a)) by lia.
    rewrite Z.mod_small by lia. lia.
  - replace (Z.of_nat i - Z.of_nat a)%Z with ((Z.of_nat i - Z.of_nat a + Z.of_nat w) + (-1) * Z.of_nat w)%Z by lia.
    rewrite Z_mod_plus_full, (Z.mod_small (Z.of_nat i - Z.of_nat a + Z.of_nat w)) by lia.
    replace (Z.of_nat (w - 1 - i) - - Z.of_nat a)%Z with ((Z.of_nat (w - 1 - i) + Z.of_nat a - Z.of_nat w) + 1 * Z.of_nat w)%Z by lia.
    rewrite Z_mod_plus_full, Z.mod_small by lia. lia.
Qed.

Lemma mod_lt_Z i a w : i < w -> Z.to_nat ((Z.of_nat i - Z.of_nat a) mod Z.of_nat w) < w.
Proof. intros H. assert (0 <= (Z.of_nat i - Z.of_nat a) mod Z.of_nat w < Z.of_nat w)%Z by (apply Z.mod_pos_bound; lia). lia. Qed.

Lemma roll_rot {A} (d : A) h w (x : list A) l : in_shape [w; h] l ->
  tf_roll d (map Z.of_nat l) (rot d ([h; w], x)) = rot d (tf_roll d (map Z.of_nat (unturned h w l)) ([h; w], x)).
Proof.
  intros Hl. apply in_shape_2 in Hl. destruct Hl as (a & b & -> & Ha & Hb). unfold tf_roll, rot, unturned. cbn [fst rearrange rev app map nth].
  rewrite !rearrange_rearrange.
  - apply rearrange_ext. intros l Hl. apply in_shape_2 in Hl. destruct Hl as (i & j & -> & Hi & Hj). cbn [rolled_loc nth].
    f_equal. f_equal. rewrite back_index by assumption. reflexivity.
  - intros l Hl. apply in_shape_2 in Hl. destruct Hl as (i & j & -> & Hi & Hj). apply in_shape_2. cbn [nth]. eexists _, _. split; [reflexivity|]. lia.
  - intros l Hl. now apply rolled_in.
Qed.

Lemma roll_mir {A} (d : A) h w (x : list A) l : in_shape [h; w] l ->
  tf_roll d (map Z.of_nat l) (mir d ([h; w], x)) = mir d (tf_roll d (map Z.of_nat (unmirrored h w l)) ([h; w], x)).
Proof.
  intros Hl. apply in_shape_2 in Hl. destruct Hl as (a & b & -> & Ha & Hb). unfold tf_roll, mir, unmirrored. cbn [fst rearrange rev app map nth].
  rewrite !rearrange_rearrange.
  - apply rearrange_ext. intros l Hl. apply in_shape_2 in Hl. destruct Hl as (i & j & -> & Hi & Hj). cbn [rolled_loc nth].
    f_equal. f_equal. rewrite back_index by assumption. reflexivity.
  - intros l Hl. apply in_shape_2 in Hl. destruct Hl as (i & j & -> & Hi & Hj). apply in_shape_2. cbn [nth]. eexists _, _. split; [reflexivity|]. lia.
  - intros l Hl. now apply rolled_in.
Qed.

Lemma minus_mod_inj w a b : a < w -> b < w -> Nat.modulo (w - a) w = Nat.modulo (w - b) w -> a = b.
Proof.
  intros Ha Hb E. destruct a as [|a], b as [|b]; auto.
  - rewrite Nat.sub_0_r, Nat.mod_same, (Nat.mod_small (w - S b)) in E by lia. lia.
  - rewrite Nat.sub_0_r, Nat.mod_same, (Nat.mod_small (w - S a)) in E by lia. lia.
  - rewrite !Nat.mod_small in E by lia. lia.
Qed.

Lemma unturned_raster h w : Permutation (map (unturned h w) (raster [w; h])) (raster [h; w]).
Proof.
  apply raster_bijection; [cbn; lia| |]; unfold unturned.
  - intros l Hl. apply in_shape_2 in Hl. destruct Hl as (i & j & -> & Hi & Hj). apply in_shape_2. cbn [nth]. eexists _, _. split; [reflexivity|].
    split; [lia|apply Nat.mod_upper_bound; lia].
  - intros l m Hl Hm. apply in_shape_2 in Hl. destruct Hl as (i & j & -> & Hi & Hj). apply in_shape_2 in Hm. destruct Hm as (i' & j' & -> & Hi' & Hj').
    cbn [nth]. intros E. injection E as E1 E2. apply minus_mod_inj in E2; auto. congruence.
Qed.

Lemma unmirrored_raster h w : Permutation (map (unmirrored h w) (raster [h; w])) (raster [h; w]).
Proof.
  apply raster_bijection; [lia| |]; unfold unmirrored.
  - intros l Hl. apply in_shape_2 in Hl. destruct Hl as (i & j & -> & Hi & Hj). apply in_shape_2. cbn [nth]. eexists _, _. split; [reflexivity|].
    split; [lia|apply Nat.mod_upper_bound; lia].
  - intros l m Hl Hm. apply in_shape_2 in Hl. destruct Hl as (i & j & -> & Hi & Hj). apply in_shape_2 in Hm. destruct Hm as (i' & j' & -> & Hi' & Hj').
    cbn [nth]. intros E. injection E as E1 E2. apply minus_mod_inj in E2; auto. congruence.
Qed.
