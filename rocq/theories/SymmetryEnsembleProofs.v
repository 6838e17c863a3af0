(** Lemmas about symmetrised wave functions. *)
From Coq Require Import List ZArith Arith Bool Reals Lia Lra Permutation.
From Verif Require Import Base OrderingModel OrderingSpec OrderingProofs TopologyProofs Cplx AutoregressiveModel AutoregressiveSpec LatticeSpec
  IsingModel IsingProofs ObservableModel ObservableSpec ObservableProofs TrainingProofs ComplexModel ComplexProofs MachinesProofs SymmetryModel SymmetrySpec SymmetryProofs.
Import ListNotations.

(** * The combination *)

Lemma Cmod_scale r z : (0 <= r)%R -> Cmod (Cscale r z) = (r * Cmod z)%R.
Proof.
  intros H. unfold Cmod, Cnorm2, Cscale. cbn [fst snd].
  replace (r * fst z * (r * fst z) + r * snd z * (r * snd z))%R with ((r * r) * (fst z * fst z + snd z * snd z))%R by ring.
  rewrite sqrt_mult; [|nra|nra]. now rewrite sqrt_square.
Qed.

Lemma angle_scaled S n : (0 < n)%R -> S = Cmult (RtoC (Cmod S)) (Cexp (0%R, angle (Cscale (/ n) S))).
Proof.
  intros Hn. assert (0 < / n)%R by now apply Rinv_0_lt_compat.
  destruct (Req_dec (Cnorm2 S) 0) as [E|E].
  - assert (S = C0) as ->.
    { unfold Cnorm2 in E. apply C_eq; unfold Re, Im; cbn; nra. }
    unfold Cmod. replace (Cnorm2 C0) with 0%R by (unfold Cnorm2; cbn; ring). rewrite sqrt_0. apply C_eq; unfold Re, Im; cbn; ring.
  - set (m := Cscale (/ n) S).
    assert (N : m <> C0).
    { intros Q. apply E. unfold m, Cscale, C0 in Q. injection Q as Q1 Q2.
      assert (fst S = 0)%R by (apply (Rmult_eq_reg_l (/ n)); lra). assert (snd S = 0)%R by (apply (Rmult_eq_reg_l (/ n)); lra).
      unfold Cnorm2. rewrite H0, H1. ring. }
    assert (P := angle_polar m N). assert (M : Cmod m = (/ n * Cmod S)%R) by (apply Cmod_scale; lra). rewrite M in P.
    assert (S = Cscale n m) as E'. { unfold m, Cscale. cbn [fst snd]. apply C_eq; unfold Re, Im; cbn [fst snd]; field; lra. }
    rewrite E' at 1. rewrite P at 1. unfold Cscale, Cmult, RtoC, Cexp. cbn [fst snd]. rewrite exp_0.
    apply C_eq; unfold Re, Im; cbn [fst snd]; field; lra.
Qed.

Lemma ensemble_combined p values : values <> [] -> combined p values (ensemble_op p (length values) values).
Proof.
  intros NE. assert (L : (0 < INR (length values))%R).
  { apply lt_0_INR. destruct values; [contradiction|cbn; lia]. }
  destruct p; cbn [combined ensemble_op].
  - unfold probabilistic_ensemble_op. split.
    + unfold weight, reduce_logsumexp. unfold Re at 1. cbn [fst].
      assert (P : (0 < Rsum exp (map (fun z => (Re z * 2)%R) values))%R).
      { apply Rsum_pos; [destruct values; [contradiction|discriminate]|intros; apply exp_pos]. }
      replace (2 * (0.5 * ln (Rsum exp (map (fun z => (Re z * 2)%R) values)) - 0.5 * ln (INR (length values))))%R with
        (ln (Rsum exp (map (fun z => (Re z * 2)%R) values)) + - ln (INR (length values)))%R by lra.
      rewrite exp_plus, exp_Ropp, !exp_ln by assumption. rewrite Rsum_map.
      rewrite (Rsum_ext _ (fun z => exp (2 * Re z))) by (intros; f_equal; ring).
      field. lra.
    + cbv zeta. unfold Im at 3. cbn [snd]. unfold Cmean. rewrite map_length. rewrite Csum_map.
      now apply angle_scaled.
  - intros NZ. unfold average_ensemble_op, Cmean. rewrite map_length, Csum_map.
    change (Csum (fun a => Cexp a) values) with (Csum Cexp values). rewrite exp_complex_log.
    + rewrite Cscale_RtoC. replace (RtoC (/ INR (length values)) * Csum Cexp values * RtoC (INR (length values)))%C with
        (RtoC (/ INR (length values) * INR (length values)) * Csum Cexp values)%C by (rewrite RtoC_mult; ring).
      rewrite Rinv_l by lra. change (RtoC 1) with C1. ring.
    + intros Q. apply NZ. replace (Csum Cexp values) with (Cscale (INR (length values)) (Cscale (/ INR (length values)) (Csum Cexp values))).
      { rewrite Q. apply C_eq; unfold Re, Im; cbn; ring. }
      unfold Cscale. cbn [fst snd]. apply C_eq; unfold Re, Im; cbn [fst snd]; field; lra.
Qed.

Lemma ensemble_perm p n a b : Permutation a b -> ensemble_op p n a = ensemble_op p n b.
Proof.
  intros H. destruct p; cbn [ensemble_op].
  - unfold probabilistic_ensemble_op, reduce_logsumexp, Cmean. f_equal.
    + f_equal. f_equal. f_equal. apply Rsum_perm. now apply Permutation_map.
    + f_equal. rewrite !map_length, (Permutation_length H). f_equal. apply Csum_perm. now apply Permutation_map.
  - unfold average_ensemble_op, Cmean. f_equal. rewrite !map_length, (Permutation_length H). f_equal.
    apply Csum_perm. now apply Permutation_map.
Qed.

(** * Batches *)

Definition acts_on (P : array Z -> Prop) (M : list (array Z) -> res (list C)) (psi : array Z -> C) : Prop :=
  forall b, Forall P b -> M b = Ok (map psi b).

Lemma flat_map_range_nth {A B} (d : A) (f : A -> list B) (l : list A) : flat_map (fun b => f (nth b l d)) (range (length l)) = flat_map f l.
Proof.
  rewrite !flat_map_concat_map. f_equal. apply (list_ext_nth (f d)).
  - unfold range. now rewrite !map_length, seq_length.
  - intros i Hi. unfold range in *. rewrite map_length, seq_length in Hi.
    rewrite (nth_indep _ (f d) ((fun b => f (nth b l d)) 0)) by (rewrite map_length, seq_length; lia).
    rewrite (map_nth (fun b => f (nth b l d))), seq_nth, map_nth by lia. reflexivity.
Qed.

Lemma flat_map_ext_in' {A B} (f g : A -> list B) l : (forall a, In a l -> f a = g a) -> flat_map f l = flat_map g l.
Proof. intros H. rewrite !flat_map_concat_map. f_equal. now apply map_ext_in. Qed.

Lemma stack_of_maps {A} (d : A) (Ts : list (A -> A)) (batch : list A) : Ts <> [] ->
  stack_last d (map (fun T => map T batch) Ts) = flat_map (fun x => map (fun T => T x) Ts) batch.
Proof.
  intros NE. unfold stack_last.
  assert (length (hd [] (map (fun T => map T batch) Ts)) = length batch) as ->.
  { destruct Ts; [contradiction|]. cbn. apply map_length. }
  rewrite <- (flat_map_range_nth d (fun x => map (fun T => T x) Ts) batch).
  apply flat_map_ext_in'. intros b Hb. apply in_seq in Hb. rewrite map_map. apply map_ext. intros T.
  rewrite (nth_indep _ d (T d)) by (rewrite map_length; lia). now rewrite map_nth.
Qed.

Lemma reshape_rows_concat {A} w (rows : list (list A)) : 0 < w -> Forall (fun r => length r = w) rows -> reshape_rows w (concat rows) = rows.
Proof.
  intros Hw F. unfold reshape_rows.
  rewrite (concat_length_const rows w) by now apply Forall_forall. rewrite Nat.div_mul by lia.
  induction F as [|r rows Hr F IH]; [reflexivity|].
  change (range (length (r :: rows))) with (0 :: seq 1 (length rows)). rewrite <- seq_shift. cbn [map concat]. f_equal.
  - unfold slice. cbn [Nat.mul skipn Nat.sub Nat.add]. rewrite !Nat.add_0_r, Nat.sub_0_r, <- Hr.
    rewrite firstn_app, Nat.sub_diag, firstn_all, firstn_O. apply app_nil_r.
  - rewrite map_map. rewrite <- IH at 2. apply map_ext. intros b. unfold slice.
    replace (S b * w) with (length r + b * w) by (rewrite Hr; lia).
    replace ((S b + 1) * w - (length r + b * w)) with ((b + 1) * w - b * w) by (rewrite Hr; lia).
    f_equal. rewrite skipn_app, skipn_all2 by lia. cbn [app]. f_equal. lia.
Qed.

Lemma symmetrization_value P M psi p (Ts : list (array Z -> array Z)) batch : Ts <> [] -> acts_on P M psi ->
  (forall x T, In x batch -> In T Ts -> P (T x)) ->
  build_symmetrization_ensemble p M (map (fun T => map T batch) Ts) =
    Ok (map (fun x => ensemble_op p (length Ts) (map (fun T => psi (T x)) Ts)) batch).
Proof.
  intros NE A HP. unfold build_symmetrization_ensemble.
  destruct (map (fun T => map T batch) Ts) eqn:E; [destruct Ts; [contradiction|discriminate]|]. rewrite <- E. clear E.
  rewrite stack_of_maps by exact NE. rewrite A.
  2: { apply Forall_forall. intros y Hy. apply in_flat_map in Hy. destruct Hy as (x & Hx & Hy). apply in_map_iff in Hy.
       destruct Hy as (T & <- & HT). auto. }
  cbn [bind]. rewrite map_length. f_equal.
  rewrite flat_map_concat_map, concat_map, map_map. rewrite reshape_rows_concat.
  - rewrite map_map. apply map_ext. intros x. now rewrite map_map.
  - destruct Ts; [contradiction|cbn; lia].
  - apply Forall_forall. intros r Hr. apply in_map_iff in Hr. destruct Hr as (x & <- & _). now rewrite !map_length.
Qed.

Lemma ensemble_of_maps {A} p (fs : list (A -> C)) (batch : list A) : fs <> [] ->
  build_ensemble p (map (fun f => map f batch) fs) = Ok (map (fun x => ensemble_op p (length fs) (map (fun f => f x) fs)) batch).
Proof.
  intros NE. unfold build_ensemble. destruct fs as [|f fs]; [contradiction|]. cbn [map]. f_equal.
  rewrite map_map. cbn [length]. rewrite !map_length.
  assert (D : batch = [] \/ exists d : A, True) by (destruct batch; [left|right]; eauto).
  destruct D as [->|[d _]]; [reflexivity|].
  apply (list_ext_nth C0). { unfold range. now rewrite !map_length, seq_length. }
  intros i Hi. unfold range in *. rewrite map_length, seq_length in Hi.
  rewrite (nth_map_in _ _ _ C0 0) by (rewrite seq_length; lia). rewrite seq_nth by lia. cbn [Nat.add].
  rewrite !(nth_map_in _ _ _ C0 d) by lia. f_equal. f_equal.
  rewrite map_map. apply map_ext. intros g. now rewrite (nth_map_in _ _ _ C0 d) by lia.
Qed.

(** * Open boundary: the eight images *)

Lemma rot90_layer k x : length (fst x) = 2 -> Rot90 k x = Ok (image_rot90 0%Z k x).
Proof. intros H. unfold Rot90. now rewrite H. Qed.
Lemma flip_layer x : length (fst x) = 2 -> FlipLeftRight x = Ok (mir 0%Z x).
Proof. intros H. unfold FlipLeftRight. rewrite H. cbn [Nat.eqb]. now rewrite reverse_1_mir. Qed.

Lemma obc_value P M psi p batch : acts_on P M psi -> Forall (fun x => length (fst x) = 2 /\ Forall P (eight 0%Z x)) batch ->
  make_2d_obc_invariants p M batch = Ok (map (fun x => ensemble_op p 8 (map psi (eight 0%Z x))) batch).
Proof.
  intros A F. rewrite Forall_forall in F. unfold make_2d_obc_invariants.
  set (r := rot 0%Z). set (m := mir 0%Z).
  rewrite (mapM_ok (Rot90 1) r). 2: { intros x Hx. rewrite rot90_layer, rot90_1; auto; apply (F x Hx). }
  cbn [bind].
  rewrite (mapM_ok (Rot90 2) (fun x => r (r x))). 2: { intros x Hx. rewrite rot90_layer, rot90_2; auto; apply (F x Hx). }
  cbn [bind].
  rewrite (mapM_ok (Rot90 3) (fun x => r (r (r x)))). 2: { intros x Hx. rewrite rot90_layer, rot90_3; auto; apply (F x Hx). }
  cbn [bind].
  assert (K : forall (g : array Z -> array Z), (forall x, In x batch -> length (fst (g x)) = 2) ->
    mapM FlipLeftRight (map g batch) = Ok (map (fun x => m (g x)) batch)).
  { intros g Hg. rewrite (mapM_ok FlipLeftRight m).
    - now rewrite map_map.
    - intros y Hy. apply in_map_iff in Hy. destruct Hy as (x & <- & Hx). apply flip_layer. auto. }
  assert (L : forall x, In x batch -> length (fst x) = 2) by (intros; now apply F).
  rewrite <- (map_id batch) at 1. cbn [mapM].
  rewrite !K by (intros; unfold r; repeat apply rot_2d; auto). cbn [bind app].
  set (fs := [(fun x : array Z => x); r; (fun x => r (r x)); (fun x => r (r (r x)));
              (fun x => m x); (fun x => m (r x)); (fun x => m (r (r x))); (fun x => m (r (r (r x))))]).
  match goal with |- (do predictions <- mapM M ?l; _) = _ => replace l with (map (fun f => map f batch) fs)
    by (unfold fs; cbn [map]; now rewrite map_id) end.
  rewrite (mapM_ok M (map psi)).
  - cbn [bind]. rewrite map_map.
    rewrite (map_ext _ (fun f => map (fun x => psi (f x)) batch)) by (intros; now rewrite map_map).
    change (map (fun f => map (fun x => psi (f x)) batch) fs) with
      (map (fun g => map g batch) (map (fun (f : array Z -> array Z) (x : array Z) => psi (f x)) fs)).
    rewrite ensemble_of_maps by discriminate. reflexivity.
  - intros b Hb. apply in_map_iff in Hb. destruct Hb as (f & <- & Hf). apply A. apply Forall_forall. intros y Hy.
    apply in_map_iff in Hy. destruct Hy as (x & <- & Hx).
    destruct (F x Hx) as [_ FP]. rewrite Forall_forall in FP. apply FP. unfold eight.
    unfold fs in Hf. cbn [In] in Hf. cbn [In].
    repeat (destruct Hf as [<-|Hf]; [auto 10|]). contradiction.
Qed.

Lemma eight_2d (x : array Z) : length (fst x) = 2 -> Forall (fun y => length (fst y) = 2) (eight 0%Z x).
Proof.
  intros H. unfold eight. repeat constructor; try (apply mir_2d); repeat apply rot_2d; exact H.
Qed.

Definition obc_psi (p : bool) (psi : array Z -> C) (x : array Z) : C := ensemble_op p 8 (map psi (eight 0%Z x)).

Lemma obc_acts M psi p : acts_on (fun _ => True) M psi -> acts_on (fun x => length (fst x) = 2) (make_2d_obc_invariants p M) (obc_psi p psi).
Proof.
  intros A b F. apply (obc_value (fun _ => True)); [exact A|]. apply Forall_forall. intros x Hx. rewrite Forall_forall in F.
  split; [now apply F|]. apply Forall_forall. auto.
Qed.

Lemma obc_psi_rot p psi x : length (fst x) = 2 -> good x -> obc_psi p psi (rot 0%Z x) = obc_psi p psi x.
Proof. intros L G. apply ensemble_perm, Permutation_map, eight_rot; assumption. Qed.
Lemma obc_psi_mir p psi x : length (fst x) = 2 -> good x -> obc_psi p psi (mir 0%Z x) = obc_psi p psi x.
Proof. intros L G. apply ensemble_perm, Permutation_map, eight_mir; assumption. Qed.

Lemma map_related {X Y Z'} (R : X -> Y -> Prop) (f : X -> Z') (g : Y -> Z') xs ys :
  Forall2 R xs ys -> (forall x y, R x y -> f x = g y) -> map f xs = map g ys.
Proof. intros F E. induction F; cbn [map]; [reflexivity|]. f_equal; auto. Qed.

Lemma obc_batch M psi p h w (xs : list (list Z)) : acts_on (fun _ => True) M psi ->
  make_2d_obc_invariants p M (map (pair [h; w]) xs) = Ok (map (fun x => obc_psi p psi ([h; w], x)) xs).
Proof.
  intros A. rewrite (obc_acts M psi p A).
  - now rewrite map_map.
  - apply Forall_forall. intros y Hy. apply in_map_iff in Hy. destruct Hy as (x & <- & _). reflexivity.
Qed.

Lemma obc_turned M psi p h w xs ys : acts_on (fun _ => True) M psi -> Forall (fun x => length x = h * w) xs ->
  Forall2 (turned h w) xs ys ->
  make_2d_obc_invariants p M (map (pair [w; h]) ys) = make_2d_obc_invariants p M (map (pair [h; w]) xs).
Proof.
  intros A L F. rewrite !(obc_batch _ psi) by exact A. f_equal. symmetry.
  induction F as [|x y xs ys H F IH]; cbn [map]; [reflexivity|]. inversion L; subst. f_equal; [|now apply IH].
  rewrite (turned_rot _ _ _ _ H). symmetry. apply obc_psi_rot; [reflexivity|unfold good; cbn; lia].
Qed.

Lemma obc_mirrored M psi p h w xs ys : acts_on (fun _ => True) M psi -> Forall (fun x => length x = h * w) xs ->
  Forall2 (mirrored h w) xs ys ->
  make_2d_obc_invariants p M (map (pair [h; w]) ys) = make_2d_obc_invariants p M (map (pair [h; w]) xs).
Proof.
  intros A L F. rewrite !(obc_batch _ psi) by exact A. f_equal. symmetry.
  induction F as [|x y xs ys H F IH]; cbn [map]; [reflexivity|]. inversion L; subst. f_equal; [|now apply IH].
  rewrite (mirrored_mir _ _ _ _ H). symmetry. apply obc_psi_mir; [reflexivity|unfold good; cbn; lia].
Qed.

(** The value: a combination of the eight images. *)
Lemma obc_images M psi p h w x : acts_on (fun _ => True) M psi -> length x = h * w ->
  exists r1 r2 r3 m0 m1 m2 m3 z,
    turned h w x r1 /\ turned w h r1 r2 /\ turned h w r2 r3 /\
    mirrored h w x m0 /\ mirrored w h r1 m1 /\ mirrored h w r2 m2 /\ mirrored w h r3 m3 /\
    make_2d_obc_invariants p M [([h; w], x)] = Ok [z] /\
    combined p (map psi [([h; w], x); ([w; h], r1); ([h; w], r2); ([w; h], r3); ([h; w], m0); ([w; h], m1); ([h; w], m2); ([w; h], m3)]) z.
Proof.
  intros A L.
  set (r1 := snd (rot 0%Z ([h; w], x))). set (r2 := snd (rot 0%Z ([w; h], r1))). set (r3 := snd (rot 0%Z ([h; w], r2))).
  exists r1, r2, r3, (snd (mir 0%Z ([h; w], x))), (snd (mir 0%Z ([w; h], r1))), (snd (mir 0%Z ([h; w], r2))), (snd (mir 0%Z ([w; h], r3))).
  exists (obc_psi p psi ([h; w], x)).
  split; [apply rot_turned|]. split; [apply rot_turned|]. split; [apply rot_turned|].
  split; [apply mir_mirrored|]. split; [apply mir_mirrored|]. split; [apply mir_mirrored|]. split; [apply mir_mirrored|].
  split; [exact (obc_batch M psi p h w [x] A)|].
  unfold obc_psi. change 8 with (length (map psi (eight 0%Z ([h; w], x)))).
  apply (ensemble_combined p (map psi (eight 0%Z ([h; w], x)))). discriminate.
Qed.

(** * Periodic boundary *)

Lemma roll_layer i x : length i = length (fst x) -> Roll (map Z.of_nat i) x = Ok (tf_roll 0%Z (map Z.of_nat i) x).
Proof. intros H. unfold Roll. rewrite map_length, H, Nat.leb_refl. reflexivity. Qed.

Definition pbc_psi (p : bool) (psi : array Z -> C) (x : array Z) : C :=
  ensemble_op p (length (raster (fst x))) (map (fun i => psi (tf_roll 0%Z (map Z.of_nat i) x)) (raster (fst x))).

Lemma raster_nonempty sh : 0 < volume sh -> raster sh <> [].
Proof. intros H E. rewrite <- raster_length, E in H. cbn in H. lia. Qed.

Lemma pbc_value_any M psi p sh xs : 0 < volume sh -> acts_on (fun x => fst x = sh) M psi ->
  make_pbc_invariants sh false p M (map (pair sh) xs) = Ok (map (fun x => pbc_psi p psi (sh, x)) xs).
Proof.
  intros V A. unfold make_pbc_invariants.
  rewrite (mapM_ok _ (fun i => map (tf_roll 0%Z (map Z.of_nat i)) (map (pair sh) xs))).
  - cbn [bind].
    rewrite <- (map_map (fun i => tf_roll 0%Z (map Z.of_nat i)) (fun T => map T (map (pair sh) xs)) (raster sh)).
    rewrite (symmetrization_value (fun x => fst x = sh) M psi).
    + f_equal. rewrite map_map. apply map_ext. intros x. unfold pbc_psi. cbn [fst]. rewrite map_length, map_map. reflexivity.
    + intros E. apply map_eq_nil in E. now apply raster_nonempty in V.
    + exact A.
    + intros x T Hx HT. apply in_map_iff in HT. destruct HT as (i & <- & _). apply in_map_iff in Hx. destruct Hx as (s & <- & _). reflexivity.
  - intros i Hi. apply in_raster in Hi. apply mapM_ok. intros x Hx. apply in_map_iff in Hx. destruct Hx as (s & <- & _).
    apply roll_layer. now apply in_shape_length.
Qed.

Lemma pbc_value M psi p sh obc xs : 0 < volume sh -> (obc = true -> length sh = 2) -> acts_on (fun _ => True) M psi ->
  make_pbc_invariants sh obc p M (map (pair sh) xs) =
  Ok (map (fun x => pbc_psi p (if obc then obc_psi p psi else psi) (sh, x)) xs).
Proof.
  intros V D A. destruct obc.
  - specialize (D eq_refl).
    transitivity (make_pbc_invariants sh false p (make_2d_obc_invariants p M) (map (pair sh) xs)); [reflexivity|].
    apply pbc_value_any; [exact V|]. intros b F. apply (obc_acts M psi p A). revert F. apply Forall_impl. intros x ->. exact D.
  - apply pbc_value_any; [exact V|]. intros b _. apply A. apply Forall_forall. auto.
Qed.

Lemma pbc_psi_roll p psi x t : length t = length (fst x) -> pbc_psi p psi (tf_roll 0%Z (map Z.of_nat t) x) = pbc_psi p psi x.
Proof.
  intros L. unfold pbc_psi. change (fst (tf_roll 0%Z (map Z.of_nat t) x)) with (fst x).
  apply ensemble_perm. now apply rolls_of_roll.
Qed.

Lemma pbc_psi_rot p psi h w x : (forall y, length (fst y) = 2 -> good y -> psi (rot 0%Z y) = psi y) ->
  pbc_psi p psi (rot 0%Z ([h; w], x)) = pbc_psi p psi ([h; w], x).
Proof.
  intros H. unfold pbc_psi. cbn [fst]. change (fst (rot 0%Z ([h; w], x))) with [w; h].
  rewrite !raster_length. replace (volume [w; h]) with (volume [h; w]) by (cbn; lia). apply ensemble_perm.
  rewrite (map_ext_in _ (fun i => psi (tf_roll 0%Z (map Z.of_nat (unturned h w i)) ([h; w], x)))).
  - rewrite <- (map_map (unturned h w) (fun i => psi (tf_roll 0%Z (map Z.of_nat i) ([h; w], x)))). apply Permutation_map. apply unturned_raster.
  - intros i Hi. apply in_raster in Hi. rewrite roll_rot by exact Hi. apply H; [reflexivity|apply rearrange_good].
Qed.

Lemma pbc_psi_mir p psi h w x : (forall y, length (fst y) = 2 -> good y -> psi (mir 0%Z y) = psi y) ->
  pbc_psi p psi (mir 0%Z ([h; w], x)) = pbc_psi p psi ([h; w], x).
Proof.
  intros H. unfold pbc_psi. cbn [fst]. change (fst (mir 0%Z ([h; w], x))) with [h; w].
  apply ensemble_perm.
  rewrite (map_ext_in _ (fun i => psi (tf_roll 0%Z (map Z.of_nat (unmirrored h w i)) ([h; w], x)))).
  - rewrite <- (map_map (unmirrored h w) (fun i => psi (tf_roll 0%Z (map Z.of_nat i) ([h; w], x)))). apply Permutation_map. apply unmirrored_raster.
  - intros i Hi. apply in_raster in Hi. rewrite roll_mir by exact Hi. apply H; [reflexivity|apply rearrange_good].
Qed.

Lemma pbc_translated M psi p sh obc xs ys : acts_on (fun _ => True) M psi -> 0 < volume sh -> (obc = true -> length sh = 2) ->
  Forall (fun x => length x = volume sh) xs -> Forall2 (fun x y => exists t, translated sh t x y) xs ys ->
  make_pbc_invariants sh obc p M (map (pair sh) ys) = make_pbc_invariants sh obc p M (map (pair sh) xs).
Proof.
  intros A V D L F. rewrite !(pbc_value _ psi) by assumption. f_equal. symmetry.
  induction F as [|x y xs ys [t H] F IH]; cbn [map]; [reflexivity|]. inversion L; subst. f_equal; [|now apply IH].
  rewrite (translated_roll sh t x y) by assumption. symmetry. apply pbc_psi_roll. exact (proj1 H).
Qed.

Lemma pbc_turned M psi p h w xs ys : acts_on (fun _ => True) M psi -> 0 < h -> 0 < w ->
  Forall (fun x => length x = h * w) xs -> Forall2 (turned h w) xs ys ->
  make_pbc_invariants [w; h] true p M (map (pair [w; h]) ys) = make_pbc_invariants [h; w] true p M (map (pair [h; w]) xs).
Proof.
  intros A Hh Hw L F. rewrite !(pbc_value _ psi) by (assumption || reflexivity || (cbn; nia)). f_equal. symmetry.
  induction F as [|x y xs ys H F IH]; cbn [map]; [reflexivity|]. inversion L; subst. f_equal; [|now apply IH].
  rewrite (turned_rot _ _ _ _ H). symmetry. apply pbc_psi_rot. intros. now apply obc_psi_rot.
Qed.

Lemma pbc_mirrored M psi p h w xs ys : acts_on (fun _ => True) M psi -> 0 < h -> 0 < w ->
  Forall (fun x => length x = h * w) xs -> Forall2 (mirrored h w) xs ys ->
  make_pbc_invariants [h; w] true p M (map (pair [h; w]) ys) = make_pbc_invariants [h; w] true p M (map (pair [h; w]) xs).
Proof.
  intros A Hh Hw L F. rewrite !(pbc_value _ psi) by (assumption || reflexivity || (cbn; nia)). f_equal. symmetry.
  induction F as [|x y xs ys H F IH]; cbn [map]; [reflexivity|]. inversion L; subst. f_equal; [|now apply IH].
  rewrite (mirrored_mir _ _ _ _ H). symmetry. apply pbc_psi_mir. intros. now apply obc_psi_mir.
Qed.

Lemma pbc_images M psi p sh x : acts_on (fun _ => True) M psi -> 0 < volume sh ->
  exists ts ys z, ordering_of sh ts /\ Forall2 (fun t y => translated sh t x y) ts ys /\
    make_pbc_invariants sh false p M [(sh, x)] = Ok [z] /\ combined p (map (fun y => psi (sh, y)) ys) z.
Proof.
  intros A V. exists (raster sh), (map (fun i => snd (tf_roll 0%Z (map Z.of_nat i) (sh, x))) (raster sh)), (pbc_psi p psi (sh, x)).
  split; [apply raster_ordering|]. split; [|split].
  - assert (H : forall i, In i (raster sh) -> length i = length sh) by (intros; now apply in_shape_length, in_raster).
    revert H. generalize (raster sh). induction l as [|i l IH]; intros H; cbn [map]; constructor.
    + apply roll_translated. apply H. now left.
    + apply IH. intros; apply H; now right.
  - exact (pbc_value M psi p sh false [x] V ltac:(discriminate) A).
  - unfold pbc_psi. cbn [fst]. rewrite map_map.
    match goal with |- combined _ ?l (ensemble_op _ ?n _) => replace n with (length l) by now rewrite map_length end.
    apply ensemble_combined. intros E. apply map_eq_nil in E. now apply raster_nonempty in V.
Qed.

Lemma pbc_obc_rejects sh p M x xs : length sh <> 2 -> 0 < volume sh ->
  make_pbc_invariants sh true p M (map (pair sh) (x :: xs)) = Err AssertionError.
Proof.
  intros D V. unfold make_pbc_invariants.
  rewrite (mapM_ok _ (fun i => map (tf_roll 0%Z (map Z.of_nat i)) (map (pair sh) (x :: xs)))).
  - cbn [bind]. unfold build_symmetrization_ensemble.
    rewrite <- (map_map (fun i => tf_roll 0%Z (map Z.of_nat i)) (fun T => map T (map (pair sh) (x :: xs))) (raster sh)).
    assert (NE : map (fun i => tf_roll 0%Z (map Z.of_nat i)) (raster sh) <> []).
    { intros E. apply map_eq_nil in E. now apply raster_nonempty in V. }
    set (Ts := map (fun i => tf_roll 0%Z (map Z.of_nat i)) (raster sh)) in *.
    match goal with |- match ?m with _ => _ end = _ => destruct m eqn:E end; [destruct Ts; [contradiction|discriminate]|]. rewrite <- E. clear E.
    rewrite stack_of_maps by exact NE. cbn [map flat_map].
    assert (S : exists y r, map (fun T => T (sh, x)) Ts = y :: r /\ fst y = sh).
    { unfold Ts in *. destruct (raster sh); [contradiction|]. cbn [map]. eexists _, _. split; reflexivity. }
    destruct S as (y & r & Er & Ey). unfold array in *. rewrite Er. cbn [app]. unfold make_2d_obc_invariants. cbn [mapM]. unfold Rot90 at 1. rewrite Ey.
    destruct (Nat.eqb_spec (length sh) 2); [contradiction|reflexivity].
  - intros i Hi. apply in_raster in Hi. apply mapM_ok. intros y Hy. apply in_map_iff in Hy. destruct Hy as (s & <- & _).
    apply roll_layer. now apply in_shape_length.
Qed.

(** * Normalisation *)

Lemma weight_probabilistic values : values <> [] ->
  weight (probabilistic_ensemble_op (length values) values) = (/ INR (length values) * Rsum weight values)%R.
Proof.
  intros NE. destruct (ensemble_combined true values NE) as [E _]. cbn [ensemble_op] in E.
  assert (0 < INR (length values))%R by (apply lt_0_INR; destruct values; [contradiction|cbn; lia]).
  rewrite <- E. field. lra.
Qed.

Lemma permutes_perm n T : permutes_configurations n T -> Permutation (spin_configs n) (map T (spin_configs n)).
Proof.
  intros H. apply NoDup_Permutation_bis; [apply NoDup_spin_configs|rewrite map_length; lia|].
  intros t Ht. destruct (H t Ht) as (s & Hs & <-). now apply in_map.
Qed.

Lemma norm_of_family n (psi : list Z -> C) (Ts : list (list Z -> list Z)) : Ts <> [] -> Forall (permutes_configurations n) Ts ->
  Rsum (fun s => weight (probabilistic_ensemble_op (length Ts) (map (fun T => psi (T s)) Ts))) (spin_configs n) =
  Rsum (fun s => weight (psi s)) (spin_configs n).
Proof.
  intros NE F. assert (L : (0 < INR (length Ts))%R) by (apply lt_0_INR; destruct Ts; [contradiction|cbn; lia]).
  rewrite (Rsum_ext _ (fun s => / INR (length Ts) * Rsum (fun T => weight (psi (T s))) Ts)%R).
  - rewrite Rsum_scal, Rsum_exchange.
    rewrite (Rsum_ext _ (fun _ => Rsum (fun s => weight (psi s)) (spin_configs n))).
    + rewrite Rsum_const. field. lra.
    + intros T HT. rewrite Forall_forall in F. rewrite <- (Rsum_map T (fun s => weight (psi s))).
      symmetry. apply Rsum_perm. apply permutes_perm. now apply F.
  - intros s _. replace (length Ts) with (length (map (fun T => psi (T s)) Ts)) at 1 by apply map_length.
    rewrite weight_probabilistic by (destruct Ts; [contradiction|discriminate]). now rewrite map_length, Rsum_map.
Qed.

Lemma symmetrization_norm M psi n sh (Ts : list (list Z -> list Z)) : acts_on (fun _ => True) M psi -> Ts <> [] ->
  Forall (permutes_configurations n) Ts ->
  exists values, build_symmetrization_ensemble true M (map (fun T => map (fun s => (sh, T s)) (spin_configs n)) Ts) = Ok values /\
    Rsum weight values = Rsum (fun s => weight (psi (sh, s))) (spin_configs n).
Proof.
  intros A NE F. eexists. split.
  - rewrite (map_ext _ (fun T => map (fun x : array Z => (fst x, T (snd x))) (map (pair sh) (spin_configs n)))) by (intros; now rewrite map_map).
    rewrite <- (map_map (fun (T : list Z -> list Z) (x : array Z) => (fst x, T (snd x))) (fun T => map T (map (pair sh) (spin_configs n)))).
    rewrite (symmetrization_value (fun _ => True) M psi); [reflexivity| | |].
    + intros E. apply map_eq_nil in E. contradiction.
    + exact A.
    + auto.
  - rewrite map_map, Rsum_map. cbn [ensemble_op]. rewrite map_length.
    rewrite (Rsum_ext _ (fun s => weight (probabilistic_ensemble_op (length Ts) (map (fun T => psi (sh, T s)) Ts)))).
    + apply (norm_of_family n (fun s => psi (sh, s)) Ts NE F).
    + intros s _. now rewrite map_map.
Qed.

(** The transformations that are used permute the configurations. *)
Lemma rearranged_spins n (sh sh' : list nat) f x : volume sh = n -> volume sh' = n -> spins n x ->
  (forall l, in_shape sh' l -> in_shape sh (f l)) -> spins n (snd (rearrange 0%Z sh' f (sh, x))).
Proof.
  intros V V' [L S] H. split; [rewrite rearrange_good; exact V'|].
  apply Forall_forall. intros v Hv. unfold rearrange in Hv. cbn [snd] in Hv. apply in_map_iff in Hv. destruct Hv as (l & <- & Hl). apply in_raster in Hl.
  rewrite entry_row_major by (apply H; exact Hl). rewrite Forall_forall in S. apply S. apply nth_In. cbn [fst snd]. rewrite L, <- V. apply row_major_lt. auto.
Qed.

Lemma neg_neg x : map (fun v => v * -1)%Z (map (fun v => v * -1)%Z x) = x.
Proof. rewrite map_map. rewrite <- (map_id x) at 2. apply map_ext. intros; lia. Qed.

Lemma rot_spins N x : spins (N * N) x -> spins (N * N) (snd (rot 0%Z ([N; N], x))).
Proof.
  intros H. unfold rot. cbn [fst rev app]. apply rearranged_spins; auto; try (cbn; lia).
  intros l Hl. apply in_shape_2 in Hl. destruct Hl as (i & j & -> & Hi & Hj). apply in_shape_2. cbn [nth]. eexists _, _. split; [reflexivity|lia].
Qed.
Lemma mir_spins N x : spins (N * N) x -> spins (N * N) (snd (mir 0%Z ([N; N], x))).
Proof.
  intros H. unfold mir. cbn [fst rev app]. apply rearranged_spins; auto; try (cbn; lia).
  intros l Hl. apply in_shape_2 in Hl. destruct Hl as (i & j & -> & Hi & Hj). apply in_shape_2. cbn [nth]. eexists _, _. split; [reflexivity|lia].
Qed.

Definition rotl (N : nat) (s : list Z) : list Z := snd (rot 0%Z ([N; N], s)).
Definition mirl (N : nat) (s : list Z) : list Z := snd (mir 0%Z ([N; N], s)).
Lemma rotl_rot N s : rot 0%Z ([N; N], s) = ([N; N], rotl N s). Proof. reflexivity. Qed.
Lemma mirl_mir N s : mir 0%Z ([N; N], s) = ([N; N], mirl N s). Proof. reflexivity. Qed.

Lemma rotl_4 N s : length s = N * N -> rotl N (rotl N (rotl N (rotl N s))) = s.
Proof.
  intros L. assert (E := rot_4 0%Z ([N; N], s) eq_refl ltac:(unfold good; cbn; lia)). rewrite !rotl_rot in E. congruence.
Qed.
Lemma mirl_2 N s : length s = N * N -> mirl N (mirl N s) = s.
Proof.
  intros L. assert (E := mir_mir 0%Z ([N; N], s) eq_refl ltac:(unfold good; cbn; lia)). rewrite !mirl_mir in E. congruence.
Qed.

Lemma permutes_by_inverse n T U : (forall s, spins n s -> spins n (U s)) -> (forall s, spins n s -> T (U s) = s) -> permutes_configurations n T.
Proof. intros HU HT t Ht. apply spins_in in Ht. exists (U t). split; [apply spins_in; auto|auto]. Qed.

Lemma permutes_compose n T U : permutes_configurations n T -> permutes_configurations n U -> permutes_configurations n (fun s => T (U s)).
Proof.
  intros HT HU t Ht. destruct (HT t Ht) as (s & Hs & <-). destruct (HU s Hs) as (r & Hr & <-). eauto.
Qed.
Lemma permutes_id n : permutes_configurations n (fun s => s).
Proof. intros t Ht. eauto. Qed.
Lemma permutes_rotl N : permutes_configurations (N * N) (rotl N).
Proof.
  apply permutes_by_inverse with (U := fun s => rotl N (rotl N (rotl N s))).
  - intros s Hs. unfold rotl. repeat apply rot_spins. exact Hs.
  - intros s [L _]. now apply rotl_4.
Qed.
Lemma permutes_mirl N : permutes_configurations (N * N) (mirl N).
Proof.
  apply permutes_by_inverse with (U := mirl N); [intros s Hs; now apply mir_spins|]. intros s [L _]. now apply mirl_2.
Qed.

Lemma obc_psi_norm N psi :
  Rsum (fun s => weight (obc_psi true psi ([N; N], s))) (spin_configs (N * N)) = Rsum (fun s => weight (psi ([N; N], s))) (spin_configs (N * N)).
Proof.
  set (r := rotl N). set (m := mirl N).
  set (Ts := [(fun s => s); r; (fun s => r (r s)); (fun s => r (r (r s))); m; (fun s => m (r s)); (fun s => m (r (r s))); (fun s => m (r (r (r s))))]).
  apply (norm_of_family (N * N) (fun s => psi ([N; N], s)) Ts); [discriminate|].
  assert (R := permutes_rotl N). assert (Q := permutes_mirl N). fold r in R. fold m in Q.
  assert (R2 := permutes_compose _ _ _ R R). assert (R3 := permutes_compose _ _ _ R R2).
  unfold Ts. repeat apply Forall_cons; try apply Forall_nil; try assumption; try (apply permutes_id); now apply permutes_compose.
Qed.

Definition rolll (sh : list nat) (t : list nat) (s : list Z) : list Z := snd (tf_roll 0%Z (map Z.of_nat t) (sh, s)).
Lemma permutes_rolll sh t : length t = length sh -> permutes_configurations (volume sh) (rolll sh t).
Proof.
  intros Lt. apply permutes_by_inverse with (U := fun s => snd (rearrange 0%Z sh (shifted sh t) (sh, s))).
  - intros s Hs. apply rearranged_spins; auto. intros; now apply shifted_in.
  - intros s [L _]. unfold rolll, tf_roll. cbn [fst].
    change (sh, snd (rearrange 0%Z sh (shifted sh t) (sh, s))) with (rearrange 0%Z sh (shifted sh t) (sh, s)).
    rewrite rearrange_rearrange by (intros; now apply rolled_in).
    rewrite (rearrange_ext _ _ _ (fun l => l)) by (intros; now apply shifted_rolled).
    change sh with (fst (sh, s)) at 1. now rewrite rearrange_id.
Qed.

Lemma pbc_psi_norm sh psi : 0 < volume sh ->
  Rsum (fun s => weight (pbc_psi true psi (sh, s))) (spin_configs (volume sh)) = Rsum (fun s => weight (psi (sh, s))) (spin_configs (volume sh)).
Proof.
  intros V. rewrite <- (norm_of_family (volume sh) (fun s => psi (sh, s)) (map (rolll sh) (raster sh))).
  - apply Rsum_ext. intros s _. unfold pbc_psi. cbn [ensemble_op fst]. rewrite map_length, map_map. reflexivity.
  - intros E. apply map_eq_nil in E. now apply raster_nonempty in V.
  - apply Forall_forall. intros T HT. apply in_map_iff in HT. destruct HT as (i & <- & Hi). apply permutes_rolll. now apply in_shape_length, in_raster.
Qed.

Lemma obc_norm M psi N : acts_on (fun _ => True) M psi ->
  exists values, make_2d_obc_invariants true M (map (pair [N; N]) (spin_configs (N * N))) = Ok values /\
    Rsum weight values = Rsum (fun s => weight (psi ([N; N], s))) (spin_configs (N * N)).
Proof.
  intros A. eexists. split; [apply (obc_batch M psi true N N _ A)|]. rewrite Rsum_map. apply obc_psi_norm.
Qed.

Lemma pbc_norm M psi sh obc : acts_on (fun _ => True) M psi -> 0 < volume sh -> (obc = true -> exists N, sh = [N; N]) ->
  exists values, make_pbc_invariants sh obc true M (map (pair sh) (spin_configs (volume sh))) = Ok values /\
    Rsum weight values = Rsum (fun s => weight (psi (sh, s))) (spin_configs (volume sh)).
Proof.
  intros A V D. eexists. split.
  - apply (pbc_value M psi true sh obc _ V); [|exact A]. intros E. destruct (D E) as (N & ->). reflexivity.
  - rewrite Rsum_map, pbc_psi_norm by exact V. destruct obc; [|reflexivity].
    destruct (D eq_refl) as (N & ->). replace (volume [N; N]) with (N * N) by (cbn; lia). apply obc_psi_norm.
Qed.

(** * Global spin flip *)

Lemma up_down_value M psi p batch : acts_on (fun _ => True) M psi ->
  make_up_down_invariant p M batch = Ok (map (fun x => ensemble_op p 2 [psi x; psi (flip_spins x)]) batch).
Proof.
  intros A. unfold make_up_down_invariant.
  rewrite <- (map_id batch) at 1.
  exact (symmetrization_value (fun _ => True) M psi p [(fun x => x); flip_spins] batch ltac:(discriminate) A (fun _ _ _ _ => I)).
Qed.

Lemma flip_flip x : flip_spins (flip_spins x) = x.
Proof. destruct x as [s x]. unfold flip_spins. cbn [fst snd]. now rewrite neg_neg. Qed.

Lemma up_down_invariant M psi p (sh : list nat) xs : acts_on (fun _ => True) M psi ->
  make_up_down_invariant p M (map (fun x => (sh, map Z.opp x)) xs) = make_up_down_invariant p M (map (pair sh) xs).
Proof.
  intros A. rewrite !(up_down_value _ psi) by exact A. f_equal. rewrite !map_map. apply map_ext. intros x.
  replace (map Z.opp x) with (map (fun v => v * -1)%Z x) by (apply map_ext; intros; lia).
  change (sh, map (fun v => v * -1)%Z x) with (flip_spins (sh, x)). rewrite flip_flip. apply ensemble_perm. constructor.
Qed.

Lemma up_down_norm M psi sh n : acts_on (fun _ => True) M psi ->
  exists values, make_up_down_invariant true M (map (pair sh) (spin_configs n)) = Ok values /\
    Rsum weight values = Rsum (fun s => weight (psi (sh, s))) (spin_configs n).
Proof.
  intros A. eexists. split; [apply (up_down_value M psi true _ A)|]. rewrite map_map, Rsum_map. cbn [ensemble_op].
  set (neg := map (fun v => v * -1)%Z).
  apply (norm_of_family n (fun s => psi (sh, s)) [(fun s => s); neg]); [discriminate|].
  repeat constructor; [apply permutes_id|]. apply permutes_by_inverse with (U := neg).
  - intros s [L S]. split; [unfold neg; now rewrite map_length|]. apply Forall_forall. intros v Hv. apply in_map_iff in Hv.
    destruct Hv as (u & <- & Hu). rewrite Forall_forall in S. destruct (S u Hu) as [-> | ->]; [right|left]; reflexivity.
  - intros s _. apply neg_neg.
Qed.

Lemma up_down_images M psi p sh x : acts_on (fun _ => True) M psi ->
  exists z, make_up_down_invariant p M [(sh, x)] = Ok [z] /\ combined p [psi (sh, x); psi (sh, map Z.opp x)] z.
Proof.
  intros A. eexists. split; [exact (up_down_value M psi p [(sh, x)] A)|].
  replace (map Z.opp x) with (map (fun v => v * -1)%Z x) by (apply map_ext; intros; lia).
  apply (ensemble_combined p [psi (sh, x); psi (flip_spins (sh, x))]). discriminate.
Qed.
