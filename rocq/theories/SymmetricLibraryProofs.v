(** Lemmas: the symmetrisations of the library and the symmetries of the lattice Hamiltonians. *)
From Coq Require Import List ZArith Arith Bool Reals Lia Lra Permutation.
From Verif Require Import Base OrderingModel OrderingSpec OrderingProofs Cplx LatticeSpec AutoregressiveSpec ObservableModel ObservableSpec ObservableProofs ExactModel ExactSpec
  ExactOperatorProofs SymmetryModel SymmetrySpec SymmetryProofs SymmetryEnsembleProofs SymmetricEvaluationModel SymmetricEvaluationSpec
  SymmetricEvaluationProofs SymmetricBondsProofs.
Import ListNotations.

(** * The Hamiltonians *)

Lemma lattice_moves pbc sh H sigma s s' t t' : chain_or_grid sh -> lattice_matrix pbc sh H ->
  permutes_sites (sites_of sh) sigma -> preserves_bonds (shape_bonds sh pbc) sigma ->
  moves (sites_of sh) sigma s s' -> moves (sites_of sh) sigma t t' -> H s' t' = H s t.
Proof.
  intros G L P B M1 M2. assert (O := shape_bonds_ok sh pbc G).
  destruct L as [(J & h & ->)|(r & ->)]; unfold ising_matrix, heisenberg_matrix.
  - now rewrite (moves_ising (sites_of sh) sigma _ J h s s' t t').
  - now rewrite (moves_heisenberg (sites_of sh) sigma _ _ s s' t t').
Qed.

Lemma spin_lengths n s : In s (spin_configs n) -> length s = n.
Proof. intros H. apply spins_in in H. exact (proj1 H). Qed.

Lemma pixel_spin w s i j : pixel w s i j = spin s (i * w + j).
Proof. reflexivity. Qed.

Lemma square_grid N : 0 < N -> chain_or_grid [N; N].
Proof. intros H. right. exists N, N. auto. Qed.
Lemma square_sites N : sites_of [N; N] = N * N.
Proof. cbn. lia. Qed.

Lemma site_split N k : k < N * N -> exists i j, k = i * N + j /\ i < N /\ j < N.
Proof.
  intros H. assert (N <> 0) by nia. exists (k / N), (k mod N). split; [|split].
  - rewrite (Nat.div_mod k N) at 1 by assumption. lia.
  - apply Nat.div_lt_upper_bound; nia.
  - now apply Nat.mod_upper_bound.
Qed.

Lemma rotl_moves N s : length s = N * N -> moves (N * N) (turn_map N) s (rotl N s).
Proof.
  intros L. destruct (rot_turned N N s) as [L' E]. fold (rotl N s) in L', E. split; [exact L|]. split; [exact L'|].
  intros k Hk. destruct (site_split N k Hk) as (i & j & -> & Hi & Hj). rewrite turn_site by exact Hj.
  rewrite <- !pixel_spin. now apply E.
Qed.

Lemma mirl_moves N s : length s = N * N -> moves (N * N) (product_map N (fun i => i) (fun j => N - 1 - j)) s (mirl N s).
Proof.
  intros L. destruct (mir_mirrored N N s) as [L' E]. fold (mirl N s) in L', E. split; [exact L|]. split; [exact L'|].
  intros k Hk. destruct (site_split N k Hk) as (i & j & -> & Hi & Hj). rewrite product_site by exact Hj.
  rewrite <- !pixel_spin. now apply E.
Qed.

Lemma chain_id n pbc : chain_symmetry n pbc (fun i => i).
Proof.
  split; [unfold permutes_sites; now rewrite map_id|]. intros f _. reflexivity.
Qed.

Lemma symmetry_rotl N pbc H : 0 < N -> lattice_matrix pbc [N; N] H -> symmetry (N * N) (rotl N) H.
Proof.
  intros HN L s t Hs Ht. apply spin_lengths in Hs. apply spin_lengths in Ht.
  apply (lattice_moves pbc [N; N] H (turn_map N)); rewrite ?square_sites; auto using square_grid, turn_permutes, rotl_moves.
  apply turn_bonds.
Qed.

Lemma symmetry_mirl N pbc H : 0 < N -> lattice_matrix pbc [N; N] H -> symmetry (N * N) (mirl N) H.
Proof.
  intros HN L s t Hs Ht. apply spin_lengths in Hs. apply spin_lengths in Ht.
  apply (lattice_moves pbc [N; N] H (product_map N (fun i => i) (fun j => N - 1 - j))); rewrite ?square_sites; auto using square_grid, mirl_moves.
  - apply product_permutes; [exact (proj1 (chain_id N pbc))|exact (proj1 (chain_reverse N pbc))].
  - apply grid_product; [apply chain_id|apply chain_reverse].
Qed.

Definition shift_map (sh t : list nat) (k : nat) : nat :=
  match sh, t with
  | [n], [a] => (k + a) mod n
  | [n; m], [a; b] => product_map m (fun i => (i + a) mod n) (fun j => (j + b) mod m) k
  | _, _ => k
  end.

Lemma rolll_moves sh t s : chain_or_grid sh -> length t = length sh -> length s = volume sh ->
  moves (volume sh) (shift_map sh t) (rolll sh t s) s.
Proof.
  intros G Lt Ls. destruct (roll_translated sh t s Lt) as (_ & L' & E). fold (rolll sh t s) in L', E.
  split; [exact L'|]. split; [exact Ls|]. intros k Hk. destruct G as [(n & -> & Hn)|(n & m & -> & Hn & Hm)].
  - destruct t as [|a [|b t]]; try discriminate. cbn [shift_map]. cbn in Hk. specialize (E [k]). unfold spin. cbn in E.
    symmetry. rewrite !Nat.mul_1_r, !Nat.add_0_r in E. apply E. repeat constructor. lia.
  - destruct t as [|a [|b [|c t]]]; try discriminate. cbn [shift_map].
    assert (k < n * m) as Hk' by (cbn in Hk; lia).
    assert (m <> 0) by lia.
    assert (Hi : k / m < n) by (apply Nat.div_lt_upper_bound; nia). assert (Hj := Nat.mod_upper_bound k m H).
    specialize (E [k / m; k mod m]). unfold spin. cbn in E. unfold product_map.
    rewrite !Nat.mul_1_r, !Nat.add_0_r in E. symmetry.
    rewrite (Nat.div_mod k m H) at 3. rewrite (Nat.mul_comm m (k / m)). apply E. repeat constructor; assumption.
Qed.

Lemma shift_symmetric sh t : chain_or_grid sh -> length t = length sh ->
  permutes_sites (sites_of sh) (shift_map sh t) /\ preserves_bonds (shape_bonds sh true) (shift_map sh t).
Proof.
  intros [(n & -> & Hn)|(n & m & -> & Hn & Hm)] L.
  - destruct t as [|a [|b t]]; try discriminate. destruct (chain_shift n a) as [P B]. split; [|exact B].
    replace (sites_of [n]) with n by (cbn; lia). exact P.
  - destruct t as [|a [|b [|c t]]]; try discriminate. split.
    + replace (sites_of [n; m]) with (n * m) by (cbn; lia). apply product_permutes; [apply (chain_shift n a)|apply (chain_shift m b)].
    + apply grid_product; [apply chain_shift|apply chain_shift].
Qed.

Lemma symmetry_rolll sh t H : chain_or_grid sh -> length t = length sh -> lattice_matrix true sh H -> symmetry (volume sh) (rolll sh t) H.
Proof.
  intros G Lt L s s' Hs Hs'. apply spin_lengths in Hs. apply spin_lengths in Hs'. symmetry.
  destruct (shift_symmetric sh t G Lt) as [P B].
  apply (lattice_moves true sh H (shift_map sh t)); auto; apply rolll_moves; auto.
Qed.

Definition neg (s : list Z) : list Z := map (fun v => v * -1)%Z s.
Lemma spin_neg s i : spin (neg s) i = (- spin s i)%Z.
Proof. unfold spin, neg. change 0%Z with ((fun v => v * -1)%Z 0%Z) at 1. rewrite map_nth. lia. Qed.
Lemma neg_eqb a b : (- a =? - b)%Z = (a =? b)%Z.
Proof. destruct (Z.eqb_spec a b), (Z.eqb_spec (- a) (- b)); lia || reflexivity. Qed.
Lemma hamming_neg s : forall t, hamming (neg s) (neg t) = hamming s t.
Proof.
  induction s as [|a s IH]; intros [|b t]; try reflexivity. cbn [neg map hamming]. fold (neg s) (neg t). rewrite IH.
  replace (a * -1 =? b * -1)%Z with (a =? b)%Z; [reflexivity|]. rewrite <- (neg_eqb a b). f_equal; lia.
Qed.
Lemma neg_length s : length (neg s) = length s. Proof. apply map_length. Qed.
Lemma exchanged_neg a b s t : exchanged a b (neg s) (neg t) = exchanged a b s t.
Proof.
  unfold exchanged. rewrite !neg_length. f_equal. induction (seq 0 (length s)) as [|i l IH]; [reflexivity|].
  cbn [forallb]. rewrite IH. f_equal. rewrite !spin_neg. destruct (i =? a); [apply neg_eqb|]. destruct (i =? b); apply neg_eqb.
Qed.
Lemma Zsum_ext {A} (f g : A -> Z) l : (forall a, f a = g a) -> Zsum f l = Zsum g l.
Proof. intros E. induction l as [|a l IH]; [reflexivity|]. cbn [Zsum fold_right]. unfold Zsum in IH. now rewrite IH, E. Qed.

Lemma symmetry_neg n pbc sh H : lattice_matrix pbc sh H -> symmetry n neg H.
Proof.
  intros [(J & h & ->)|(r & ->)] s t _ _; unfold ising_matrix, heisenberg_matrix; f_equal.
  - unfold ising_element. rewrite hamming_neg. destruct (hamming s t); [|reflexivity]. f_equal. apply Rsum_ext. intros b _. rewrite !spin_neg. f_equal. lia.
  - f_equal. unfold heisenberg_element. f_equal.
    + destruct (list_eq_dec Z.eq_dec (neg s) (neg t)) as [E|E], (list_eq_dec Z.eq_dec s t) as [E'|E']; try reflexivity.
      * apply Zsum_ext. intros b. rewrite !spin_neg. lia.
      * exfalso. apply E'. rewrite <- (neg_neg s), <- (neg_neg t). fold (neg s) (neg t). now rewrite E.
      * exfalso. apply E. now rewrite E'.
    + apply Zsum_ext. intros b. rewrite exchanged_neg, !spin_neg, neg_eqb. reflexivity.
Qed.

Lemma symmetry_compose n T U H : permutes_configurations n U -> symmetry n T H -> symmetry n U H -> symmetry n (fun s => T (U s)) H.
Proof. intros P A B s t Hs Ht. rewrite A by now apply permutes_in. now apply B. Qed.
Lemma symmetry_id n H : symmetry n (fun s => s) H.
Proof. intros s t _ _. reflexivity. Qed.

(** * The symmetrisations *)

Definition mean_weights (n : nat) (Ts : list (list Z -> list Z)) (psi phi : list Z -> C) : Prop :=
  forall s, In s (spin_configs n) -> (weight (phi s) * INR (length Ts) = Rsum (fun T => weight (psi (T s))) Ts)%R.
Definition unchanged (n : nat) (Ts : list (list Z -> list Z)) (phi : list Z -> C) : Prop :=
  forall s T, In s (spin_configs n) -> In T Ts -> phi (T s) = phi s.
Definition composed (Us Ts : list (list Z -> list Z)) : list (list Z -> list Z) := flat_map (fun U => map (fun T s => T (U s)) Ts) Us.

Lemma composed_length Us Ts : length (composed Us Ts) = length Us * length Ts.
Proof. unfold composed. induction Us as [|U Us IH]; [reflexivity|]. cbn [flat_map]. rewrite app_length, map_length, IH. cbn. lia. Qed.
Lemma in_composed Us Ts V : In V (composed Us Ts) -> exists U T, In U Us /\ In T Ts /\ V = (fun s => T (U s)).
Proof.
  intros H. apply in_flat_map in H. destruct H as (U & HU & H). apply in_map_iff in H. destruct H as (T & <- & HT). eauto.
Qed.

Lemma composed_symmetrised n Us Ts psi chi phi : Us <> [] -> Ts <> [] -> Forall (permutes_configurations n) Us -> Forall (permutes_configurations n) Ts ->
  mean_weights n Ts psi chi -> mean_weights n Us chi phi -> unchanged n Us phi -> unchanged n Ts phi ->
  symmetrised n (composed Us Ts) psi phi.
Proof.
  intros NU NT FU FT WT WU IU IT. rewrite Forall_forall in FU, FT. split; [|split; [|split]].
  - destruct Us; [contradiction|]. destruct Ts; [contradiction|discriminate].
  - apply Forall_forall. intros V HV. apply in_composed in HV. destruct HV as (U & T & HU & HT & ->). apply permutes_compose; auto.
  - intros s Hs. rewrite composed_length, mult_INR. unfold composed. rewrite Rsum_flat_map.
    transitivity (weight (phi s) * INR (length Us) * INR (length Ts))%R; [ring|]. rewrite (WU s Hs), <- Rsum_scal_r.
    apply Rsum_ext. intros U HU. rewrite Rsum_map. apply WT. apply permutes_in; auto.
  - intros s V Hs HV. apply in_composed in HV. destruct HV as (U & T & HU & HT & ->).
    rewrite IT; [now apply IU| |exact HT]. apply permutes_in; auto.
Qed.

Definition eight_maps (N : nat) : list (list Z -> list Z) :=
  let r := rotl N in let m := mirl N in
  [(fun s => s); r; (fun s => r (r s)); (fun s => r (r (r s))); m; (fun s => m (r s)); (fun s => m (r (r s))); (fun s => m (r (r (r s))))].

Lemma eight_maps_permute N : Forall (permutes_configurations (N * N)) (eight_maps N).
Proof.
  assert (R := permutes_rotl N). assert (Q := permutes_mirl N).
  assert (R2 := permutes_compose _ _ _ R R). assert (R3 := permutes_compose _ _ _ R R2).
  unfold eight_maps. cbv zeta. repeat apply Forall_cons; try apply Forall_nil; try assumption; try (apply permutes_id); now apply permutes_compose.
Qed.

Lemma eight_maps_symmetries N pbc H : 0 < N -> lattice_matrix pbc [N; N] H -> Forall (fun T => symmetry (N * N) T H) (eight_maps N).
Proof.
  intros HN L. assert (R := symmetry_rotl N pbc H HN L). assert (Q := symmetry_mirl N pbc H HN L).
  assert (PR := permutes_rotl N). assert (PR2 := permutes_compose _ _ _ PR PR). assert (PR3 := permutes_compose _ _ _ PR PR2).
  assert (R2 := symmetry_compose _ _ _ _ PR R R). assert (R3 := symmetry_compose _ _ _ _ PR2 R R2).
  unfold eight_maps. cbv zeta. repeat apply Forall_cons; try apply Forall_nil; try assumption; try (apply symmetry_id); now apply symmetry_compose.
Qed.

(** A function that does not change under rotation and mirror image does not change under the eight maps. *)
Lemma eight_unchanged N (phi : list Z -> C) : (forall s, length s = N * N -> phi (rotl N s) = phi s) -> (forall s, length s = N * N -> phi (mirl N s) = phi s) ->
  unchanged (N * N) (eight_maps N) phi.
Proof.
  intros HR HM s T Hs HT. apply spin_lengths in Hs.
  assert (L : forall s, length s = N * N -> length (rotl N s) = N * N) by (intros u Hu; exact (proj1 (rot_turned N N u))).
  unfold eight_maps in HT. cbv zeta in HT.
  repeat (destruct HT as [<-|HT]; [rewrite ?HM, ?HR by auto; reflexivity|]). contradiction.
Qed.

Lemma eight_weights N psi : mean_weights (N * N) (eight_maps N) (fun s => psi ([N; N], s)) (fun s => obc_psi true psi ([N; N], s)).
Proof.
  intros s _. unfold obc_psi. change 8 with (length (map psi (eight 0%Z ([N; N], s)))). cbn [ensemble_op].
  rewrite weight_probabilistic by discriminate. change (length (map psi (eight 0%Z ([N; N], s)))) with 8. change (length (eight_maps N)) with 8.
  rewrite Rsum_map. unfold eight, eight_maps. cbv zeta. rewrite !Rsum_cons, !Rsum_nil. rewrite !rotl_rot, !mirl_mir.
  assert (INR 8 <> 0)%R by (apply not_0_INR; discriminate). field. assumption.
Qed.

Lemma obc_unchanged N p psi : unchanged (N * N) (eight_maps N) (fun s => obc_psi p psi ([N; N], s)).
Proof.
  apply eight_unchanged; intros s L.
  - rewrite <- rotl_rot. apply obc_psi_rot; [reflexivity|unfold good; cbn; lia].
  - rewrite <- mirl_mir. apply obc_psi_mir; [reflexivity|unfold good; cbn; lia].
Qed.

Lemma symmetrised_of n Ts psi phi : Ts <> [] -> Forall (permutes_configurations n) Ts -> mean_weights n Ts psi phi -> unchanged n Ts phi ->
  symmetrised n Ts psi phi.
Proof. intros. split; [assumption|]. split; [assumption|]. split; assumption. Qed.

Lemma obc_symmetrised N psi : symmetrised (N * N) (eight_maps N) (fun s => psi ([N; N], s)) (fun s => obc_psi true psi ([N; N], s)).
Proof. apply symmetrised_of; [discriminate|apply eight_maps_permute|apply eight_weights|apply obc_unchanged]. Qed.

(** Translations. *)
Definition roll_maps (sh : list nat) : list (list Z -> list Z) := map (rolll sh) (raster sh).

Lemma roll_maps_nonempty sh : 0 < volume sh -> roll_maps sh <> [].
Proof. intros V E. apply map_eq_nil in E. now apply raster_nonempty in V. Qed.
Lemma roll_maps_permute sh : Forall (permutes_configurations (volume sh)) (roll_maps sh).
Proof.
  apply Forall_forall. intros T HT. apply in_map_iff in HT. destruct HT as (i & <- & Hi). apply permutes_rolll. now apply in_shape_length, in_raster.
Qed.
Lemma roll_weights sh psi : 0 < volume sh ->
  mean_weights (volume sh) (roll_maps sh) (fun s => psi (sh, s)) (fun s => pbc_psi true psi (sh, s)).
Proof.
  intros V s _. unfold pbc_psi. cbn [fst ensemble_op]. unfold roll_maps. rewrite map_length, Rsum_map.
  set (values := map (fun i => psi (tf_roll 0%Z (map Z.of_nat i) (sh, s))) (raster sh)).
  replace (length (raster sh)) with (length values) by apply map_length.
  rewrite weight_probabilistic.
  - unfold values at 2. rewrite Rsum_map. change (fun i => weight (psi (tf_roll 0%Z (map Z.of_nat i) (sh, s)))) with (fun i => weight (psi (sh, rolll sh i s))).
    assert (INR (length values) <> 0)%R; [|field; assumption]. apply not_0_INR. unfold values. rewrite map_length, raster_length. lia.
  - unfold values. intros E. apply map_eq_nil in E. now apply raster_nonempty in V.
Qed.
Lemma roll_unchanged sh p psi : unchanged (volume sh) (roll_maps sh) (fun s => pbc_psi p psi (sh, s)).
Proof.
  intros s T _ HT. apply in_map_iff in HT. destruct HT as (i & <- & Hi). apply in_raster, in_shape_length in Hi.
  exact (pbc_psi_roll p psi (sh, s) i Hi).
Qed.
Lemma pbc_symmetrised sh psi : 0 < volume sh ->
  symmetrised (volume sh) (roll_maps sh) (fun s => psi (sh, s)) (fun s => pbc_psi true psi (sh, s)).
Proof. intros V. apply symmetrised_of; [now apply roll_maps_nonempty|apply roll_maps_permute|now apply roll_weights|apply roll_unchanged]. Qed.
Lemma roll_maps_symmetries sh H : chain_or_grid sh -> lattice_matrix true sh H -> Forall (fun T => symmetry (volume sh) T H) (roll_maps sh).
Proof.
  intros G L. apply Forall_forall. intros T HT. apply in_map_iff in HT. destruct HT as (i & <- & Hi). apply symmetry_rolll; auto.
  now apply in_shape_length, in_raster.
Qed.

Lemma pbc_obc_symmetrised N psi : 0 < N ->
  symmetrised (N * N) (composed (roll_maps [N; N]) (eight_maps N)) (fun s => psi ([N; N], s)) (fun s => pbc_psi true (obc_psi true psi) ([N; N], s)).
Proof.
  intros HN. assert (V : 0 < volume [N; N]) by (cbn; nia). assert (EV : volume [N; N] = N * N) by (cbn; lia).
  apply (composed_symmetrised _ _ _ _ (fun s => obc_psi true psi ([N; N], s))).
  - now apply roll_maps_nonempty.
  - discriminate.
  - rewrite <- EV. apply roll_maps_permute.
  - apply eight_maps_permute.
  - apply eight_weights.
  - rewrite <- EV. now apply (roll_weights [N; N] (obc_psi true psi)).
  - rewrite <- EV. apply roll_unchanged.
  - apply eight_unchanged; intros s L.
    + rewrite <- rotl_rot. apply pbc_psi_rot. intros. now apply obc_psi_rot.
    + rewrite <- mirl_mir. apply pbc_psi_mir. intros. now apply obc_psi_mir.
Qed.

Lemma composed_symmetries n Us Ts H : Forall (permutes_configurations n) Us -> Forall (fun T => symmetry n T H) Us -> Forall (fun T => symmetry n T H) Ts ->
  Forall (fun T => symmetry n T H) (composed Us Ts).
Proof.
  intros P A B. rewrite Forall_forall in *. intros V HV. apply in_composed in HV. destruct HV as (U & T & HU & HT & ->). apply symmetry_compose; auto.
Qed.

(** Global flip. *)
Definition flip_maps : list (list Z -> list Z) := [(fun s => s); neg].
Definition flip_psi (psi : array Z -> C) (x : array Z) : C := ensemble_op true 2 [psi x; psi (flip_spins x)].

Lemma permutes_neg n : permutes_configurations n neg.
Proof.
  apply permutes_by_inverse with (U := neg).
  - intros s [L S]. split; [now rewrite neg_length|]. apply Forall_forall. intros v Hv. apply in_map_iff in Hv.
    destruct Hv as (u & <- & Hu). rewrite Forall_forall in S. destruct (S u Hu) as [-> | ->]; [right|left]; reflexivity.
  - intros s _. apply neg_neg.
Qed.
Lemma flip_maps_permute n : Forall (permutes_configurations n) flip_maps.
Proof. repeat apply Forall_cons; [apply permutes_id|apply permutes_neg|constructor]. Qed.
Lemma flip_weights n sh psi : mean_weights n flip_maps (fun s => psi (sh, s)) (fun s => flip_psi psi (sh, s)).
Proof.
  intros s _. unfold flip_psi, flip_maps. cbn [ensemble_op length].
  change 2 with (length [psi (sh, s); psi (flip_spins (sh, s))]) at 1. rewrite weight_probabilistic by discriminate.
  cbn [length]. rewrite !Rsum_cons, !Rsum_nil. change (flip_spins (sh, s)) with (sh, neg s). cbn [INR]. field.
Qed.
Lemma flip_unchanged n sh psi : unchanged n flip_maps (fun s => flip_psi psi (sh, s)).
Proof.
  intros s T _ [<-|[<-|[]]]; [reflexivity|]. unfold flip_psi. change (sh, neg s) with (flip_spins (sh, s)). rewrite flip_flip.
  apply ensemble_perm. constructor.
Qed.
Lemma flip_symmetrised n sh psi : symmetrised n flip_maps (fun s => psi (sh, s)) (fun s => flip_psi psi (sh, s)).
Proof. apply symmetrised_of; [discriminate|apply flip_maps_permute|apply flip_weights|apply flip_unchanged]. Qed.
Lemma flip_maps_symmetries n pbc sh H : lattice_matrix pbc sh H -> Forall (fun T => symmetry n T H) flip_maps.
Proof. intros L. repeat apply Forall_cons; [apply symmetry_id|now apply (symmetry_neg n pbc sh)|constructor]. Qed.

Lemma flip_rearrange sh f (x : array Z) : flip_spins (rearrange 0%Z sh f x) = rearrange 0%Z sh f (flip_spins x).
Proof.
  unfold flip_spins, rearrange. cbn [fst snd]. f_equal. rewrite map_map. apply map_ext. intros l. unfold entry_at. cbn [fst snd].
  set (g := fun v => (v * -1)%Z). change 0%Z with (g 0%Z) at 2. rewrite map_nth. reflexivity.
Qed.

Lemma evaluation_symmetrised N psi :
  symmetrised (N * N) (composed flip_maps (eight_maps N)) (fun s => psi ([N; N], s)) (fun s => flip_psi (obc_psi true psi) ([N; N], s)).
Proof.
  apply (composed_symmetrised _ _ _ _ (fun s => obc_psi true psi ([N; N], s))).
  - discriminate.
  - discriminate.
  - apply flip_maps_permute.
  - apply eight_maps_permute.
  - apply eight_weights.
  - apply (flip_weights (N * N) [N; N] (obc_psi true psi)).
  - apply flip_unchanged.
  - apply eight_unchanged; intros s L; unfold flip_psi.
    + rewrite <- rotl_rot. rewrite obc_psi_rot by (reflexivity || (unfold good; cbn; lia)). do 3 f_equal.
      unfold rot at 1. rewrite flip_rearrange. apply (obc_psi_rot true psi (flip_spins ([N; N], s))); [reflexivity|].
      unfold good, flip_spins. cbn [fst snd]. rewrite map_length. cbn. lia.
    + rewrite <- mirl_mir. rewrite obc_psi_mir by (reflexivity || (unfold good; cbn; lia)). do 3 f_equal.
      unfold mir at 1. rewrite flip_rearrange. apply (obc_psi_mir true psi (flip_spins ([N; N], s))); [reflexivity|].
      unfold good, flip_spins. cbn [fst snd]. rewrite map_length. cbn. lia.
Qed.

(** * The models *)
Lemma predicted_rows M' sh (phi : list Z -> C) : (forall xs, M' (map (pair sh) xs) = Ok (map phi xs)) -> forall s, predicted M' sh s = phi s.
Proof. intros H s. unfold predicted. specialize (H [s]). cbn [map] in H. now rewrite H. Qed.

Lemma evaluation_rows M psi N : acts_on (fun _ => True) M psi -> forall xs,
  evaluation_model M (map (pair [N; N]) xs) = Ok (map (fun s => flip_psi (obc_psi true psi) ([N; N], s)) xs).
Proof.
  intros A xs. unfold evaluation_model, make_up_down_invariant.
  rewrite <- (map_id (map (pair [N; N]) xs)) at 1.
  etransitivity; [apply (symmetrization_value (fun x => length (fst x) = 2) (make_2d_obc_invariants true M) (obc_psi true psi) true [(fun x => x); flip_spins]
    (map (pair [N; N]) xs) ltac:(discriminate) (obc_acts M psi true A))|].
  2: { rewrite map_map. reflexivity. }
  - intros x T Hx HT. apply in_map_iff in Hx. destruct Hx as (s & <- & _). destruct HT as [<-|[<-|[]]]; reflexivity.
Qed.

Lemma up_down_rows M psi sh : acts_on (fun _ => True) M psi -> forall xs,
  make_up_down_invariant true M (map (pair sh) xs) = Ok (map (fun s => flip_psi psi (sh, s)) xs).
Proof. intros A xs. rewrite (up_down_value M psi true _ A), map_map. reflexivity. Qed.

Lemma symmetrised_ext n Ts psi phi phi' : (forall s, phi' s = phi s) -> symmetrised n Ts psi phi -> symmetrised n Ts psi phi'.
Proof.
  intros E (A & B & W & I). split; [exact A|]. split; [exact B|]. split.
  - intros s Hs. rewrite E. now apply W.
  - intros s T Hs HT. rewrite !E. now apply I.
Qed.
