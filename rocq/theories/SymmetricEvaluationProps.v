(** Property C65 (machines/ensemble.py with optimization/variational_monte_carlo.py, as used by experiments/run_evaluation.py, experiments/train.py,
    examples/ising.py and examples/evaluate_with_2d_obc_invariant.py): the energy of the symmetrised wave function is estimated with batches
    drawn from the unsymmetrised one. *)
From Coq Require Import List ZArith Arith Bool Reals Lia Lra Permutation.
From Verif Require Import Base OrderingModel OrderingSpec OrderingProofs Cplx LatticeSpec AutoregressiveSpec ObservableModel ObservableSpec ObservableProofs ExactModel ExactSpec ExactProofs
  ExactOperatorProofs MonteCarloModel MonteCarloSpec MonteCarloProofs SymmetryModel SymmetrySpec SymmetryProofs SymmetryEnsembleProofs SymmetryProps
  SymmetricEvaluationModel SymmetricEvaluationSpec SymmetricEvaluationProofs SymmetricBondsProofs SymmetricLibraryProofs SymmetricWitnessProofs.
Import ListNotations.
Local Open Scope R_scope.

(** C65: the Hamiltonians have the symmetries: rotations and mirror images of square grids and the global flip for both boundary conditions,
    translations for the periodic one. *)
Theorem C65_hamiltonian_symmetries : forall (pbc : bool) (H : list Z -> list Z -> C),
  (forall N s t s' t', (0 < N)%nat -> lattice_matrix pbc [N; N] H -> In s (spin_configs (N * N)) -> In t (spin_configs (N * N)) ->
     (turned N N s s' /\ turned N N t t') \/ (mirrored N N s s' /\ mirrored N N t t') -> H s' t' = H s t) /\
  (forall shape s t, lattice_matrix pbc shape H -> H (map Z.opp s) (map Z.opp t) = H s t) /\
  (forall shape a s t s' t', chain_or_grid shape -> lattice_matrix true shape H -> In s (spin_configs (volume shape)) -> In t (spin_configs (volume shape)) ->
     translated shape a s s' -> translated shape a t t' -> H s' t' = H s t).
Proof.
  intros pbc H. split; [|split].
  - intros N s t s' t' HN L Hs Ht [[A B]|[A B]].
    + apply turned_rot in A. apply turned_rot in B. rewrite rotl_rot in A, B. injection A as ->. injection B as ->.
      now apply (symmetry_rotl N pbc H HN L).
    + apply mirrored_mir in A. apply mirrored_mir in B. rewrite mirl_mir in A, B. injection A as ->. injection B as ->.
      now apply (symmetry_mirl N pbc H HN L).
  - intros shape s t L. assert (E : forall u, map Z.opp u = neg u) by (intros u; apply map_ext; intros; lia). rewrite !E.
    destruct L as [(J & h & ->)|(r & ->)].
    + unfold ising_matrix. f_equal. unfold ising_element. rewrite hamming_neg. destruct (hamming s t); [|reflexivity]. f_equal. apply Rsum_ext.
      intros b _. rewrite !spin_neg. f_equal. lia.
    + unfold heisenberg_matrix. do 2 f_equal. unfold heisenberg_element. f_equal.
      * destruct (list_eq_dec Z.eq_dec (neg s) (neg t)) as [Q|Q], (list_eq_dec Z.eq_dec s t) as [Q'|Q']; try reflexivity.
        -- apply Zsum_ext. intros b. rewrite !spin_neg. lia.
        -- exfalso. apply Q'. rewrite <- (neg_neg s), <- (neg_neg t). fold (neg s) (neg t). now rewrite Q.
        -- exfalso. apply Q. now rewrite Q'.
      * apply Zsum_ext. intros b. rewrite exchanged_neg, !spin_neg, neg_eqb. reflexivity.
  - intros shape a s t s' t' G L Hs Ht A B.
    assert (La := proj1 A). assert (Ls := spin_lengths _ _ Hs). assert (Lt := spin_lengths _ _ Ht).
    apply (translated_roll shape a s s' Ls) in A. apply (translated_roll shape a t t' Lt) in B.
    replace s' with (rolll shape a s) by (unfold rolll; now rewrite <- A). replace t' with (rolll shape a t) by (unfold rolll; now rewrite <- B).
    now apply (symmetry_rolll shape a H G La L).
Qed.
Print Assumptions C65_hamiltonian_symmetries.
Example C65_hamiltonian_symmetries_ex : lattice_matrix false [2; 2]%nat (ising_matrix 1 3 false [2; 2]%nat) /\
  turned 2 2 [1; 1; -1; 1]%Z [1; 1; 1; -1]%Z /\ translated [3]%nat [1]%nat [1; 1; -1]%Z [-1; 1; 1]%Z.
Proof.
  split; [left; eauto|]. split.
  - split; [reflexivity|]. intros [|[|i]] [|[|j]] Hi Hj; try lia; reflexivity.
  - split; [reflexivity|]. split; [reflexivity|]. intros l H. inversion H as [|i ? l' ? Hi T]; subst. inversion T; subst.
    destruct i as [|[|[|i]]]; try lia; reflexivity.
Qed.

(** C65: every statistic of a batch that does not change when a row is replaced by its image has, for independent rows, the same average over
    the batches of the unsymmetrised wave function as over those of the symmetrised one. *)
Theorem C65_statistics : forall (n : nat) (Ts : list (list Z -> list Z)) (log_psi log_phi : list Z -> C) (F : list (list Z) -> R) (B : nat),
  symmetrised n Ts log_psi log_phi -> row_invariant n Ts F ->
  average_over (independent n log_psi) n B F = average_over (independent n log_phi) n B F.
Proof. intros n Ts psi phi F B S I. exact (same_average n Ts psi phi S F I B). Qed.
Print Assumptions C65_statistics.
Example C65_statistics_ex : exists log_phi, symmetrised 1 [(fun s => s); map (fun v => v * -1)%Z] (fun s => RtoC (IZR (nth 0 s 0%Z))) log_phi /\
  row_invariant 1 [(fun s => s); map (fun v => v * -1)%Z] (fun b => Rsum (fun s => IZR (Z.abs (sumZ s))) b).
Proof.
  eexists. split; [exact (flip_symmetrised 1 [1%nat] (fun x => RtoC (IZR (nth 0 (snd x) 0%Z))))|].
  intros b1 s b2 T A HT. rewrite !Rsum_app, !Rsum_cons. do 2 f_equal. f_equal.
  apply Forall_app in A. destruct A as [_ A]. inversion A as [|x l Hs _]; subst. destruct Hs as [<-|[<-|[]]]; destruct HT as [<-|[<-|[]]]; reflexivity.
Qed.

(** C65: for symmetries of the Hamiltonian the energy of a batch drawn from the unsymmetrised wave function, with the local energies of the
    symmetrised one, is on average the energy of the symmetrised one; for independent rows, its mean square error is that of batches of the
    symmetrised one, and so is the average of the reported variance. *)
Theorem C65_energy_unbiased : forall (n B : nat) (H : list Z -> list Z -> C) (op : operator) (Ts : list (list Z -> list Z)) (log_psi log_phi : list Z -> C),
  (0 < B)%nat -> operator_represents n H op -> symmetrised n Ts log_psi log_phi -> Forall (fun T => symmetry n T H) Ts ->
  exists energy v,
    (forall b, In b (all_batches n B) -> exists st, next_batch op log_phi b = Ok st /\ energy_of_step st = energy b /\ variance_of_step st = v b) /\
    (forall law, right_marginals n B log_psi law -> Caverage_over law n B energy = expectation n H log_phi) /\
    average_over (independent n log_psi) n B (fun b => Cnorm2 (energy b - expectation n H log_phi)%C) = fluctuation n H log_phi / INR B /\
    average_over (independent n log_psi) n B v = (INR B - 1) / INR B * real_fluctuation n H log_phi.
Proof.
  intros n B H op Ts psi phi HB HO S HS.
  exists (spec_energy n H phi), (fun b => Rvar (map (fun s => Re (local_energy n H phi s)) b)). split; [|split; [|split]].
  - intros b Hb. apply all_batches_in in Hb. destruct Hb as [Lb A]. eexists. split; [apply (next_batch_ok n H); eauto using nonempty_batch|]. split; reflexivity.
  - intros law M. now apply (symmetrised_unbiased n Ts psi phi S H HS law B HB).
  - rewrite (symmetrised_error n Ts psi phi S H HS B HB). unfold Rdiv. ring.
  - exact (symmetrised_variance n Ts psi phi S H HS B HB).
Qed.
Print Assumptions C65_energy_unbiased.
Example C65_energy_unbiased_ex : exists log_phi, symmetrised 4 [(fun s => s); map (fun v => v * -1)%Z] (fun s => RtoC (IZR (nth 0 s 0%Z))) log_phi /\
  operator_represents 4 (ising_matrix 1 3 false [2; 2]%nat) (ising_operator 1 3 false [2; 2]%nat) /\
  Forall (fun T => symmetry 4 T (ising_matrix 1 3 false [2; 2]%nat)) [(fun s => s); map (fun v => v * -1)%Z].
Proof.
  eexists. split; [exact (flip_symmetrised 4 [2; 2]%nat (fun x => RtoC (IZR (nth 0 (snd x) 0%Z))))|]. split.
  - apply (ising_operator_represents 1 3 false [2; 2]%nat). right. exists 2%nat, 2%nat. split; [reflexivity|lia].
  - apply (flip_maps_symmetries 4 false [2; 2]%nat). left. eauto.
Qed.

(** The conclusion for one symmetrised model: its values on a batch are those of the single rows, and the estimates are right. *)
Definition evaluated_rightly (shape : list nat) (B : nat) (psi : list nat * list Z -> C) (model : list (array Z) -> res (list C)) (H : list Z -> list Z -> C)
    (op : operator) : Prop :=
  let n := volume shape in let log_psi := fun s => psi (shape, s) in let log_phi := predicted model shape in
  (forall batch, model (map (pair shape) batch) = Ok (map log_phi batch)) /\
  exists energy v,
    (forall b, In b (all_batches n B) -> exists st, next_batch op log_phi b = Ok st /\ energy_of_step st = energy b /\ variance_of_step st = v b) /\
    (forall law, right_marginals n B log_psi law -> Caverage_over law n B energy = expectation n H log_phi) /\
    average_over (independent n log_psi) n B (fun b => Cnorm2 (energy b - expectation n H log_phi)%C) = fluctuation n H log_phi / INR B /\
    average_over (independent n log_psi) n B v = (INR B - 1) / INR B * real_fluctuation n H log_phi /\
    average_over (independent n log_psi) n B (batch_mean abs_sigma_z) = average_over (independent n log_phi) n B (batch_mean abs_sigma_z).

Lemma sumZ_map_neg s : sumZ (neg s) = (- sumZ s)%Z.
Proof. induction s as [|a s IH]; [reflexivity|]. cbn [neg map]. fold (neg s). cbn [sumZ fold_right] in *. unfold sumZ in *. cbn [fold_right]. rewrite IH. lia. Qed.

Lemma rightly shape B psi model phi H op Ts : (0 < B)%nat -> operator_represents (volume shape) H op ->
  (forall xs, model (map (pair shape) xs) = Ok (map phi xs)) -> symmetrised (volume shape) Ts (fun s => psi (shape, s)) phi ->
  Forall (fun T => symmetry (volume shape) T H) Ts ->
  (forall s T, In s (spin_configs (volume shape)) -> In T Ts -> abs_sigma_z (T s) = abs_sigma_z s) -> evaluated_rightly shape B psi model H op.
Proof.
  intros HB HO R S HS HA. assert (E := predicted_rows model shape phi R). split.
  - intros b. rewrite R. f_equal. apply map_ext. intros s. symmetry. apply E.
  - apply (symmetrised_ext _ _ _ phi (predicted model shape)) in S; [|exact E].
    destruct (C65_energy_unbiased (volume shape) B H op Ts _ _ HB HO S HS) as (e & v & A1 & A2 & A3 & A4). exists e, v.
    split; [exact A1|]. split; [exact A2|]. split; [exact A3|]. split; [exact A4|].
    apply (C65_statistics _ Ts); [exact S|]. intros b1 s b2 T A HT. unfold batch_mean. f_equal. rewrite !map_app. cbn [map].
    rewrite HA; [reflexivity| |exact HT]. apply Forall_app in A. destruct A as [_ A]. now inversion A.
Qed.

(** Rearranging sites keeps the magnetisation. *)
Lemma moves_sum n sigma s t : permutes_sites n sigma -> moves n sigma s t -> sumZ t = sumZ s.
Proof.
  intros P (L1 & L2 & E).
  assert (G : forall l, IZR (sumZ l) = Rsum (fun i => IZR (spin l i)) (seq 0 (length l))).
  { induction l as [|a l IH]; [reflexivity|]. cbn [length seq]. rewrite Rsum_cons, <- seq_shift, Rsum_map. change (sumZ (a :: l)) with (a + sumZ l)%Z.
    rewrite plus_IZR, IH. reflexivity. }
  apply eq_IZR. rewrite !G, L1, L2. rewrite (Rsum_ext _ (fun i => IZR (spin s (sigma i)))).
  - rewrite <- (Rsum_map sigma (fun i => IZR (spin s i))). now apply Rsum_perm.
  - intros i Hi. apply in_seq in Hi. rewrite E by lia. reflexivity.
Qed.
Lemma moves_abs n sigma s t : permutes_sites n sigma -> moves n sigma s t -> abs_sigma_z t = abs_sigma_z s.
Proof. intros P M. unfold abs_sigma_z. rewrite (moves_sum n sigma s t P M). destruct M as (-> & -> & _). reflexivity. Qed.
Lemma rotl_abs N s : length s = (N * N)%nat -> abs_sigma_z (rotl N s) = abs_sigma_z s.
Proof. intros L. apply (moves_abs (N * N) (turn_map N)); [apply turn_permutes|now apply rotl_moves]. Qed.
Lemma mirl_abs N s : length s = (N * N)%nat -> abs_sigma_z (mirl N s) = abs_sigma_z s.
Proof.
  intros L. eapply moves_abs; [|now apply mirl_moves]. apply product_permutes; [exact (proj1 (chain_id N true))|exact (proj1 (chain_reverse N true))].
Qed.
Lemma eight_abs N s T : length s = (N * N)%nat -> In T (eight_maps N) -> abs_sigma_z (T s) = abs_sigma_z s.
Proof.
  intros L HT. assert (LR : forall s, length s = (N * N)%nat -> length (rotl N s) = (N * N)%nat) by (intros u Hu; exact (proj1 (rot_turned N N u))).
  unfold eight_maps in HT. cbv zeta in HT.
  repeat (destruct HT as [<-|HT]; [rewrite ?mirl_abs, ?rotl_abs by auto; reflexivity|]). contradiction.
Qed.
Lemma neg_abs s : abs_sigma_z (neg s) = abs_sigma_z s.
Proof. unfold abs_sigma_z. now rewrite neg_length, sumZ_map_neg, Z.abs_opp. Qed.
Lemma flip_abs s T : In T flip_maps -> abs_sigma_z (T s) = abs_sigma_z s.
Proof. intros [<-|[<-|[]]]; [reflexivity|apply neg_abs]. Qed.
Lemma roll_abs sh s T : chain_or_grid sh -> length s = volume sh -> In T (roll_maps sh) -> abs_sigma_z (T s) = abs_sigma_z s.
Proof.
  intros G L HT. apply in_map_iff in HT. destruct HT as (t & <- & Ht). apply in_raster, in_shape_length in Ht. symmetry.
  apply (moves_abs (volume sh) (shift_map sh t)); [exact (proj1 (shift_symmetric sh t G Ht))|now apply rolll_moves].
Qed.
Lemma map_length_permutes n T s : permutes_configurations n T -> In s (spin_configs n) -> length (T s) = n.
Proof. intros P Hs. apply spin_lengths. now apply permutes_in. Qed.
Lemma square_volume N : volume [N; N] = (N * N)%nat. Proof. cbn. lia. Qed.

(** C65: the evaluation of experiments/run_evaluation.py on a square grid, for the Ising and the Heisenberg operator with either boundary. *)
Theorem C65_run_evaluation : forall (N B : nat) (pbc : bool) (psi : list nat * list Z -> C) M (H : list Z -> list Z -> C) (op : operator),
  (0 < N)%nat -> (0 < B)%nat -> model_of psi M -> lattice_matrix pbc [N; N] H -> operator_represents (N * N) H op ->
  evaluated_rightly [N; N] B psi (evaluation_model M) H op.
Proof.
  intros N B pbc psi M H op HN HB A L HO.
  apply (rightly _ _ _ _ (fun s => flip_psi (obc_psi true psi) ([N; N], s)) _ _ (composed flip_maps (eight_maps N))); rewrite ?square_volume; auto.
  - exact (evaluation_rows M psi N (fun b _ => A b)).
  - exact (evaluation_symmetrised N psi).
  - apply composed_symmetries; [apply flip_maps_permute|now apply (flip_maps_symmetries (N * N) pbc [N; N])|now apply (eight_maps_symmetries N pbc)].
  - intros s V Hs HV. apply in_composed in HV. destruct HV as (U & T & HU & HT & ->).
    assert (FU := flip_maps_permute (N * N)). rewrite Forall_forall in FU.
    rewrite (eight_abs N); [now apply flip_abs|now apply map_length_permutes, Hs; apply FU|exact HT].
Qed.
Print Assumptions C65_run_evaluation.
Example C65_run_evaluation_ex : (exists rot, lattice_matrix false [2; 2]%nat (heisenberg_matrix rot false [2; 2]%nat)) /\
  operator_represents (2 * 2) (heisenberg_matrix true false [2; 2]%nat) (heisenberg_operator (HeisenbergModel.heisenberg_init [2; 2]%nat true false)) /\
  model_of (fun x => RtoC (IZR (nth 0 (snd x) 0%Z))) (fun b => Ok (map (fun x => RtoC (IZR (nth 0 (snd x) 0%Z))) b)).
Proof.
  split; [exists true; right; eauto|]. split; [|intros b; reflexivity].
  apply (heisenberg_operator_represents [2; 2]%nat true false []); [right; exists 2%nat, 2%nat; split; [reflexivity|lia]|reflexivity].
Qed.

(** C65: the eight images alone (examples/evaluate_with_2d_obc_invariant.py). *)
Theorem C65_square_images : forall (N B : nat) (pbc : bool) (psi : list nat * list Z -> C) M (H : list Z -> list Z -> C) (op : operator),
  (0 < N)%nat -> (0 < B)%nat -> model_of psi M -> lattice_matrix pbc [N; N] H -> operator_represents (N * N) H op ->
  evaluated_rightly [N; N] B psi (make_2d_obc_invariants true M) H op.
Proof.
  intros N B pbc psi M H op HN HB A L HO.
  apply (rightly _ _ _ _ (fun s => obc_psi true psi ([N; N], s)) _ _ (eight_maps N)); rewrite ?square_volume; auto.
  - intros xs. exact (obc_batch M psi true N N xs (fun b _ => A b)).
  - exact (obc_symmetrised N psi).
  - now apply (eight_maps_symmetries N pbc).
  - intros s T Hs HT. apply (eight_abs N); [now apply spin_lengths|exact HT].
Qed.
Print Assumptions C65_square_images.
Example C65_square_images_ex : operator_represents (2 * 2) (ising_matrix 1 3 false [2; 2]%nat) (ising_operator 1 3 false [2; 2]%nat) /\
  lattice_matrix false [2; 2]%nat (ising_matrix 1 3 false [2; 2]%nat).
Proof.
  split; [|left; eauto]. apply (ising_operator_represents 1 3 false [2; 2]%nat). right. exists 2%nat, 2%nat. split; [reflexivity|lia].
Qed.

(** C65: translations, of chains and grids with periodic boundary; with the additional option on square grids. *)
Theorem C65_translations : forall (shape : list nat) (obc : bool) (B : nat) (psi : list nat * list Z -> C) M (H : list Z -> list Z -> C) (op : operator),
  chain_or_grid shape -> (obc = true -> exists N, shape = [N; N]) -> (0 < B)%nat -> model_of psi M -> lattice_matrix true shape H ->
  operator_represents (volume shape) H op -> evaluated_rightly shape B psi (make_pbc_invariants shape obc true M) H op.
Proof.
  intros shape obc B psi M H op G D HB A L HO.
  assert (V : (0 < volume shape)%nat).
  { destruct G as [(n & -> & Hn)|(n & m & -> & Hn & Hm)]; cbn; nia. }
  destruct obc.
  - destruct (D eq_refl) as (N & ->). assert (HN : (0 < N)%nat) by (cbn in V; nia).
    apply (rightly _ _ _ _ (fun s => pbc_psi true (obc_psi true psi) ([N; N], s)) _ _ (composed (roll_maps [N; N]) (eight_maps N))); auto.
    + intros xs. exact (pbc_value M psi true [N; N] true xs V (fun _ => eq_refl) (fun b _ => A b)).
    + rewrite square_volume. now apply pbc_obc_symmetrised.
    + rewrite square_volume. apply composed_symmetries; [|rewrite <- square_volume; now apply roll_maps_symmetries|now apply (eight_maps_symmetries N true)].
      rewrite <- square_volume. apply roll_maps_permute.
    + intros s W Hs HW. apply in_composed in HW. destruct HW as (U & T & HU & HT & ->).
      assert (FU := roll_maps_permute [N; N]). rewrite Forall_forall in FU.
      rewrite (eight_abs N); [apply (roll_abs [N; N]); auto; now apply spin_lengths| |exact HT].
      rewrite <- square_volume. now apply map_length_permutes, Hs; apply FU.
  - apply (rightly _ _ _ _ (fun s => pbc_psi true psi (shape, s)) _ _ (roll_maps shape)); auto.
    + intros xs. exact (pbc_value M psi true shape false xs V (fun E => ltac:(discriminate E)) (fun b _ => A b)).
    + now apply pbc_symmetrised.
    + now apply roll_maps_symmetries.
    + intros s T Hs HT. apply (roll_abs shape); auto. now apply spin_lengths.
Qed.
Print Assumptions C65_translations.
Example C65_translations_ex : chain_or_grid [3]%nat /\ operator_represents 3 (ising_matrix 1 3 true [3]%nat) (ising_operator 1 3 true [3]%nat).
Proof.
  split; [left; exists 3%nat; split; [reflexivity|lia]|]. apply (ising_operator_represents 1 3 true [3]%nat). left. exists 3%nat. split; [reflexivity|lia].
Qed.

(** C65: the global flip alone, on any chain or grid. *)
Theorem C65_global_flip : forall (shape : list nat) (pbc : bool) (B : nat) (psi : list nat * list Z -> C) M (H : list Z -> list Z -> C) (op : operator),
  (0 < B)%nat -> model_of psi M -> lattice_matrix pbc shape H -> operator_represents (volume shape) H op ->
  evaluated_rightly shape B psi (make_up_down_invariant true M) H op.
Proof.
  intros shape pbc B psi M H op HB A L HO.
  apply (rightly _ _ _ _ (fun s => flip_psi psi (shape, s)) _ _ flip_maps); auto.
  - exact (up_down_rows M psi shape (fun b _ => A b)).
  - apply flip_symmetrised.
  - now apply (flip_maps_symmetries (volume shape) pbc shape).
  - intros s T _ HT. now apply flip_abs.
Qed.
Print Assumptions C65_global_flip.
Example C65_global_flip_ex : operator_represents (volume [2; 3]%nat) (ising_matrix 1 3 true [2; 3]%nat) (ising_operator 1 3 true [2; 3]%nat).
Proof. apply (ising_operator_represents 1 3 true [2; 3]%nat). right. exists 2%nat, 3%nat. split; [reflexivity|lia]. Qed.

(** C65 fails for the average of the amplitudes: psi(--) = i and psi = 1 otherwise, two open sites without field. *)
Definition direct (psi : array Z -> C) (batch : list (array Z)) : res (list C) := Ok (map psi batch).
Definition phase_down (x : array Z) : C := if list_eq_dec Z.eq_dec (snd x) [-1; -1]%Z then (0, PI / 2) else C0.
Theorem C65_average_refuted : exists psi M, model_of psi M /\
  let log_phi := predicted (make_up_down_invariant false M) [2%nat] in
  exists energy, (forall b, In b (all_batches 2 1) -> exists st, next_batch (ising_operator 1 0 false [2%nat]) log_phi b = Ok st /\ energy_of_step st = energy b) /\
    Caverage_over (independent 2 (fun s => psi ([2%nat], s))) 2 1 energy <> expectation 2 (ising_matrix 1 0 false [2%nat]) log_phi.
Proof.
  exists phase_down, (direct phase_down). split; [intros b; reflexivity|]. cbv zeta.
  set (phi := predicted _ _).
  assert (E : forall s, phi s = average_ensemble_op [phase_down ([2%nat], s); phase_down (flip_spins ([2%nat], s))]).
  { intros s. unfold phi, predicted. now rewrite (up_down_value (direct phase_down) phase_down false [([2%nat], s)] (fun b _ => eq_refl)). }
  assert (W : forall values, values <> [] -> Csum Cexp values <> C0 ->
    weight (average_ensemble_op values) = Cnorm2 (Csum Cexp values) / INR (length values) ^ 2).
  { intros values NE NZ. assert (Q := ensemble_combined false values NE). cbn [combined ensemble_op] in Q. specialize (Q NZ).
    apply (f_equal Cnorm2) in Q. rewrite Cnorm2_mult, Cnorm2_exp in Q. unfold weight.
    assert (INR (length values) <> 0) by (apply not_0_INR; destruct values; [contradiction|discriminate]).
    rewrite <- Q. unfold Cnorm2, RtoC. cbn [fst snd]. field. assumption. }
  assert (P : Cexp (0, PI / 2) = (0, 1)) by (unfold Cexp, Re, Im; cbn [fst snd]; rewrite exp_0, cos_PI2, sin_PI2; f_equal; ring).
  assert (A0 : Cexp C0 = (1, 0)) by (unfold Cexp, C0, Re, Im; cbn [fst snd]; rewrite exp_0, cos_0, sin_0; f_equal; ring).
  assert (W2 : forall a b, Csum Cexp [a; b] <> C0 -> weight (average_ensemble_op [a; b]) = Cnorm2 (Cexp a + Cexp b)%C / 4).
  { intros a b NZ. rewrite W by (discriminate || exact NZ). cbn [length INR]. replace (Csum Cexp [a; b]) with (Cexp a + Cexp b)%C; [unfold Rdiv; f_equal; f_equal; ring|].
    rewrite !Csum_cons. change (Csum Cexp []) with C0. ring. }
  assert (N2 : forall a b, Re (Cexp a) + Re (Cexp b) <> 0 -> Csum Cexp [a; b] <> C0).
  { intros a b NZ Q. apply NZ. apply (f_equal Re) in Q. rewrite Re_Csum, !Rsum_cons in Q. change (Rsum _ (@nil C)) with 0 in Q. change (Re C0) with 0 in Q. lra. }
  assert (W00 : weight (average_ensemble_op [C0; C0]) = 1).
  { rewrite W2 by (apply N2; rewrite ?A0; unfold Re; cbn [fst]; lra). rewrite A0. unfold Cnorm2, Cplus. cbn [fst snd]. field. }
  assert (W01 : weight (average_ensemble_op [C0; (0, PI / 2)]) = / 2).
  { rewrite W2 by (apply N2; rewrite ?A0, ?P; unfold Re; cbn [fst]; lra). rewrite A0, P. unfold Cnorm2, Cplus. cbn [fst snd]. field. }
  assert (W10 : weight (average_ensemble_op [(0, PI / 2); C0]) = / 2).
  { rewrite W2 by (apply N2; rewrite ?A0, ?P; unfold Re; cbn [fst]; lra). rewrite A0, P. unfold Cnorm2, Cplus. cbn [fst snd]. field. }
  assert (V : forall s, In s (spin_configs 2) -> weight (phi s) = if (nth 0 s 0 =? nth 1 s 0)%Z then / 2 else 1).
  { intros s Hs. rewrite E. destruct Hs as [<-|[<-|[<-|[<-|[]]]]]; [exact W01|exact W00|exact W00|exact W10]. }
  apply biased; [reflexivity|left; exists 2%nat; split; [reflexivity|lia]|].
  rewrite (mean_of_weights 2 phi _ _ V).
  rewrite (mean_of_weights 2 (fun s => phase_down ([2%nat], s)) _ (fun _ => 1)).
  2: { intros s _. unfold phase_down. destruct (list_eq_dec _ _ _); [apply weight_phase|apply weight_0]. }
  unfold bond_energy, spin_configs, shape_bonds, chain_bonds. cbn -[Rplus Rmult Rdiv Rinv Ropp IZR]. unfold spin. cbn [nth fst snd].
  change (1 * 1)%Z with 1%Z. change (1 * -1)%Z with (-1)%Z. change (-1 * 1)%Z with (-1)%Z. change (-1 * -1)%Z with 1%Z. lra.
Qed.
Print Assumptions C65_average_refuted.

(** C65 fails for the translations of an open chain: psi(+-+) = e and psi = 1 otherwise, three sites without field. *)
Definition middle_down (x : array Z) : C := if list_eq_dec Z.eq_dec (snd x) [1; -1; 1]%Z then RtoC 1 else C0.
Theorem C65_open_translations_refuted : exists psi M, model_of psi M /\
  let log_phi := predicted (make_pbc_invariants [3%nat] false true M) [3%nat] in
  exists energy, (forall b, In b (all_batches 3 1) -> exists st, next_batch (ising_operator 1 0 false [3%nat]) log_phi b = Ok st /\ energy_of_step st = energy b) /\
    Caverage_over (independent 3 (fun s => psi ([3%nat], s))) 3 1 energy <> expectation 3 (ising_matrix 1 0 false [3%nat]) log_phi.
Proof.
  exists middle_down, (direct middle_down). split; [intros b; reflexivity|]. cbv zeta. set (phi := predicted _ _).
  assert (E : forall s, phi s = pbc_psi true middle_down ([3%nat], s)).
  { apply predicted_rows. intros xs. exact (pbc_value (direct middle_down) middle_down true [3%nat] false xs ltac:(cbn; lia) (fun E => ltac:(discriminate E)) (fun b _ => eq_refl)). }
  assert (V : forall s, In s (spin_configs 3) -> weight (phi s) = if in_dec (list_eq_dec Z.eq_dec) s [[1; 1; -1]; [1; -1; 1]; [-1; 1; 1]]%Z then (exp 2 + 2) / 3 else 1).
  { intros s Hs. rewrite E. destruct (pbc_symmetrised [3%nat] middle_down ltac:(cbn; lia)) as (_ & _ & Q & _). specialize (Q s Hs).
    change (length (roll_maps [3%nat])) with 3%nat in Q. cbn [INR] in Q.
    enough (G : Rsum (fun T => weight (middle_down ([3%nat], T s))) (roll_maps [3%nat]) = 3 * (if in_dec (list_eq_dec Z.eq_dec) s [[1; 1; -1]; [1; -1; 1]; [-1; 1; 1]]%Z then (exp 2 + 2) / 3 else 1)) by (rewrite G in Q; lra).
    unfold roll_maps. rewrite Rsum_map. change (raster [3%nat]) with [[0]; [1]; [2]]%nat. rewrite !Rsum_cons. change (Rsum _ (@nil loc)) with 0.
    assert (K0 : weight C0 + (weight C0 + (weight C0 + 0)) = 3 * 1) by (rewrite weight_0; lra).
    assert (K1 : weight (RtoC 1) + (weight C0 + (weight C0 + 0)) = 3 * ((exp 2 + 2) / 3)) by (rewrite weight_0, weight_1; lra).
    assert (K2 : weight C0 + (weight (RtoC 1) + (weight C0 + 0)) = 3 * ((exp 2 + 2) / 3)) by (rewrite weight_0, weight_1; lra).
    assert (K3 : weight C0 + (weight C0 + (weight (RtoC 1) + 0)) = 3 * ((exp 2 + 2) / 3)) by (rewrite weight_0, weight_1; lra).
    destruct Hs as [<-|[<-|[<-|[<-|[<-|[<-|[<-|[<-|[]]]]]]]]]; first [exact K0|exact K1|exact K2|exact K3]. }
  apply biased; [reflexivity|left; exists 3%nat; split; [reflexivity|lia]|].
  rewrite (mean_of_weights 3 phi _ _ V).
  rewrite (mean_of_weights 3 (fun s => middle_down ([3%nat], s)) _ (fun s => if list_eq_dec Z.eq_dec s [1; -1; 1]%Z then exp 2 else 1)).
  2: { intros s _. unfold middle_down. cbn [snd]. destruct (list_eq_dec _ _ _); [apply weight_1|apply weight_0]. }
  unfold bond_energy, spin_configs, shape_bonds, chain_bonds. cbn -[Rplus Rmult Rdiv Rinv Ropp IZR exp]. unfold spin. cbn [nth fst snd].
  change (1 * 1)%Z with 1%Z. change (1 * -1)%Z with (-1)%Z. change (-1 * 1)%Z with (-1)%Z. change (-1 * -1)%Z with 1%Z.
  assert (X := exp2_gt). intros Q. 
  match type of Q with ?a / ?b = ?c / ?d => assert (a * d = c * b) by (field_simplify_eq in Q; lra) end. nra.
Qed.
Print Assumptions C65_open_translations_refuted.

(** C65 fails for the images of a rectangular grid, which have another shape: psi = e for two equal spins in a column, psi = 1 otherwise. *)
Definition column_up (x : array Z) : C :=
  if list_eq_dec Nat.eq_dec (fst x) [2; 1]%nat then if (nth 0 (snd x) 0 =? nth 1 (snd x) 0)%Z then RtoC 1 else C0 else C0.
Theorem C65_rectangle_refuted : exists psi M, model_of psi M /\
  let log_phi := predicted (make_2d_obc_invariants true M) [1; 2]%nat in
  exists energy, (forall b, In b (all_batches 2 1) -> exists st, next_batch (ising_operator 1 0 false [1; 2]%nat) log_phi b = Ok st /\ energy_of_step st = energy b) /\
    Caverage_over (independent 2 (fun s => psi ([1; 2]%nat, s))) 2 1 energy <> expectation 2 (ising_matrix 1 0 false [1; 2]%nat) log_phi.
Proof.
  exists column_up, (direct column_up). split; [intros b; reflexivity|]. cbv zeta. set (phi := predicted _ _).
  assert (E : forall s, phi s = obc_psi true column_up ([1; 2]%nat, s)).
  { apply predicted_rows. intros xs. exact (obc_batch (direct column_up) column_up true 1 2 xs (fun b _ => eq_refl)). }
  assert (V : forall s, In s (spin_configs 2) -> weight (phi s) = if (nth 0 s 0 =? nth 1 s 0)%Z then (exp 2 + 1) / 2 else 1).
  { intros s Hs. rewrite E. unfold obc_psi. 
    destruct (ensemble_combined true (map column_up (eight 0%Z ([1; 2]%nat, s))) ltac:(discriminate)) as [Q _].
    change (length (map column_up (eight 0%Z ([1; 2]%nat, s)))) with 8%nat in Q. replace (INR 8) with 8 in Q by (cbn [INR]; lra).
    assert (K0 : Rsum weight [C0; C0; C0; C0; C0; C0; C0; C0] = 8 * 1) by (rewrite !Rsum_cons, weight_0; change (Rsum weight []) with 0; lra).
    assert (K1 : Rsum weight [C0; RtoC 1; C0; RtoC 1; C0; RtoC 1; C0; RtoC 1] = 8 * ((exp 2 + 1) / 2))
      by (rewrite !Rsum_cons, weight_0, weight_1; change (Rsum weight []) with 0; lra).
    enough (G : Rsum weight (map column_up (eight 0%Z ([1; 2]%nat, s))) = 8 * (if (nth 0 s 0 =? nth 1 s 0)%Z then (exp 2 + 1) / 2 else 1)) by (rewrite G in Q; lra).
    destruct Hs as [<-|[<-|[<-|[<-|[]]]]]; [exact K1|exact K0|exact K0|exact K1]. }
  apply biased; [reflexivity|right; exists 1%nat, 2%nat; split; [reflexivity|lia]|].
  rewrite (mean_of_weights 2 phi _ _ V).
  rewrite (mean_of_weights 2 (fun s => column_up ([1; 2]%nat, s)) _ (fun _ => 1)).
  2: { intros s _. exact weight_0. }
  unfold bond_energy, spin_configs, shape_bonds. cbn -[Rplus Rmult Rdiv Rinv Ropp IZR exp]. unfold spin. cbn [nth fst snd].
  change (1 * 1)%Z with 1%Z. change (1 * -1)%Z with (-1)%Z. change (-1 * 1)%Z with (-1)%Z. change (-1 * -1)%Z with 1%Z.
  assert (X := exp2_gt). intros Q. 
  match type of Q with ?a / ?b = ?c / ?d => assert (a * d = c * b) by (field_simplify_eq in Q; lra) end. nra.
Qed.
Print Assumptions C65_rectangle_refuted.

(** C65 fails for the magnetisation, which the flip does not keep: psi(+) = e, psi(-) = 1. *)
Definition up_only (x : array Z) : C := if list_eq_dec Z.eq_dec (snd x) [1]%Z then RtoC 1 else C0.
Theorem C65_sigma_z_refuted : exists psi M, model_of psi M /\
  average_over (independent 1 (fun s => psi ([1%nat], s))) 1 1 (batch_mean sigma_z) <>
  average_over (independent 1 (predicted (make_up_down_invariant true M) [1%nat])) 1 1 (batch_mean sigma_z).
Proof.
  exists up_only, (direct up_only). split; [intros b; reflexivity|]. set (phi := predicted _ _).
  assert (E : forall s, phi s = flip_psi up_only ([1%nat], s)).
  { apply predicted_rows. exact (up_down_rows (direct up_only) up_only [1%nat] (fun b _ => eq_refl)). }
  assert (V : forall s, In s (spin_configs 1) -> weight (phi s) = (exp 2 + 1) / 2).
  { intros s Hs. rewrite E. destruct (flip_symmetrised 1 [1%nat] up_only) as (_ & _ & Q & _). specialize (Q s Hs). cbn [length flip_maps INR] in Q.
    unfold flip_maps in Q. rewrite !Rsum_cons in Q. change (Rsum _ (@nil (list Z -> list Z))) with 0 in Q.
    destruct Hs as [<-|[<-|[]]];
      [change (weight (flip_psi up_only ([1%nat], [1%Z])) * (1 + 1) = weight (RtoC 1) + (weight C0 + 0)) in Q
      |change (weight (flip_psi up_only ([1%nat], [(-1)%Z])) * (1 + 1) = weight C0 + (weight (RtoC 1) + 0)) in Q]; rewrite weight_0, weight_1 in Q; lra. }
  intros Q.
  assert (M : forall lp, average_over (independent 1 lp) 1 1 (batch_mean sigma_z) = mean_config 1 lp sigma_z).
  { intros lp. unfold average_over, mean_config, all_batches. cbn. unfold batch_mean, Rmean, independent. cbn. field. }
  rewrite !M in Q. rewrite (mean_of_weights 1 phi _ _ V) in Q.
  rewrite (mean_of_weights 1 (fun s => up_only ([1%nat], s)) _ (fun s => if list_eq_dec Z.eq_dec s [1]%Z then exp 2 else 1)) in Q.
  2: { intros s _. unfold up_only. cbn [snd]. destruct (list_eq_dec _ _ _); [apply weight_1|apply weight_0]. }
  unfold sigma_z, spin_configs in Q. cbn -[Rplus Rmult Rdiv Rinv Ropp IZR exp] in Q. change (1 + 0)%Z with 1%Z in Q. change (-1 + 0)%Z with (-1)%Z in Q. assert (X := exp2_gt).
  match type of Q with ?a / ?b = ?c / ?d => assert (a * d = c * b) by (field_simplify_eq in Q; lra) end. nra.
Qed.
Print Assumptions C65_sigma_z_refuted.

(** The magnetisation of a configuration: spins up minus spins down, per spin. *)
Definition ups_minus_downs (s : list Z) : R := INR (count_occ Z.eq_dec s 1%Z) - INR (count_occ Z.eq_dec s (-1)%Z).
Lemma sumZ_counts s : (forall x, In x s -> x = 1 \/ x = -1)%Z -> IZR (sumZ s) = ups_minus_downs s.
Proof.
  unfold ups_minus_downs. induction s as [|x s IH]; intros H; [cbn; lra|]. unfold sumZ in *. cbn [fold_right]. rewrite plus_IZR, IH by (intros; apply H; now right).
  destruct (H x (or_introl eq_refl)) as [->| ->]; [rewrite count_occ_cons_eq, count_occ_cons_neq by easy|rewrite count_occ_cons_neq, count_occ_cons_eq by easy];
    rewrite S_INR; lra.
Qed.
Lemma batch_mean_unbiased n B lp law f : (0 < B)%nat -> right_marginals n B lp law ->
  average_over law n B (batch_mean f) = mean_config n lp f.
Proof.
  intros HB M. assert (INR B <> 0) by (apply not_0_INR; lia). unfold average_over.
  rewrite (Rsum_ext _ (fun b => / INR B * (law b * Rsum f b))).
  - rewrite Rsum_scal. change (/ INR B * average_over law n B (Rsum f) = mean_config n lp f). rewrite (marginals_sum n B lp law f M). now field.
  - intros b Hb. apply all_batches_in in Hb. destruct Hb as [<- _]. unfold batch_mean, Rmean. rewrite map_length, Rsum_map. rewrite <- !Rmult_assoc. apply f_equal2; [ring|reflexivity].
Qed.

(** C65: the two magnetisation observables estimate the mean magnetisation per spin and the mean of its absolute value, without bias. *)
Theorem C65_magnetisation : forall (n B : nat) (log_psi : list Z -> C) (law : list (list Z) -> R), (0 < B)%nat -> right_marginals n B log_psi law ->
  average_over law n B (batch_mean sigma_z) = mean_config n log_psi (fun s => ups_minus_downs s / INR n) /\
  average_over law n B (batch_mean abs_sigma_z) = mean_config n log_psi (fun s => Rabs (ups_minus_downs s) / INR n).
Proof.
  intros n B lp law HB M. rewrite !(batch_mean_unbiased n B lp law _ HB M). unfold mean_config, sigma_z, abs_sigma_z.
  split; apply Rsum_ext; intros s Hs; destruct (AutoregressiveProofs.spin_configs_spins n s Hs) as [L P]; apply f_equal2; try reflexivity; rewrite L, ?abs_IZR; now rewrite <- (sumZ_counts s (proj1 (Forall_forall _ _) P)).
Qed.
Print Assumptions C65_magnetisation.
Example C65_magnetisation_ex : right_marginals 2 3 (fun _ => C0) (independent 2 (fun _ => C0)) /\ Rabs (ups_minus_downs [-1; 1; -1]%Z) / INR 3 = / 3.
Proof.
  split; [apply independent_marginals|]. unfold ups_minus_downs. cbn [count_occ Z.eq_dec]. cbn -[Rplus Rminus Rdiv Rinv Rmult Rabs].
  rewrite Rabs_left by lra. lra.
Qed.
