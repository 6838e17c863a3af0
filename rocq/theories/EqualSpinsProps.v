(** C19: EqualUpDownSpins. *)
From Coq Require Import List ZArith Reals Bool Arith Lia Lra Floats.SpecFloat.
From Verif Require Import Base Cplx OrderingModel AutoregressiveModel AutoregressiveSpec AutoregressiveProofs LatticeSpec EqualSpinsModel EqualSpinsSpec EqualSpinsProofs.
Import ListNotations.

(** The constant of the mask. *)
Definition huge : R := IZR (10 ^ 300).
Lemma log_zero_huge : LOG_ZERO = (- huge)%R.
Proof. unfold LOG_ZERO, huge. apply opp_IZR. Qed.

(** On an even number of sites the entries a configuration uses are all left alone iff the configuration has as many up as down spins. *)
Theorem C19_zero_magnetisation : forall n x s, spins (2 * n) s -> length x = 2 * n -> Forall (fun row => length row = 2) x ->
  (forall i, i < 2 * n ->
     nth (category (nth i s 0%Z)) (nth i (equal_up_down_spins x s) []) C0 = nth (category (nth i s 0%Z)) (nth i x []) C0)
  <-> ups s = downs s.
Proof. intros n x s. exact (sector_even x s n). Qed.
Print Assumptions C19_zero_magnetisation.
Example C19_zero_magnetisation_ex : spins (2 * 2) [1; -1; -1; 1]%Z /\ ups [1; -1; -1; 1]%Z = downs [1; -1; -1; 1]%Z /\ ups [1; 1; -1; 1]%Z <> downs [1; 1; -1; 1]%Z.
Proof. split; [|split; [reflexivity|discriminate]]. split; [reflexivity|]. repeat (apply Forall_cons; [unfold is_spin; auto|]); apply Forall_nil. Qed.

(** On an odd number the two sectors next to zero remain. *)
Theorem C19_odd : forall n x s, spins (2 * n + 1) s -> length x = 2 * n + 1 -> Forall (fun row => length row = 2) x ->
  (forall i, i < 2 * n + 1 ->
     nth (category (nth i s 0%Z)) (nth i (equal_up_down_spins x s) []) C0 = nth (category (nth i s 0%Z)) (nth i x []) C0)
  <-> (ups s = S (downs s) \/ downs s = S (ups s)).
Proof. intros n x s. exact (sector_odd x s n). Qed.
Print Assumptions C19_odd.
Example C19_odd_ex : spins (2 * 1 + 1) [1; -1; 1]%Z /\ ups [1; -1; 1]%Z = S (downs [1; -1; 1]%Z).
Proof. split; [|reflexivity]. split; [reflexivity|]. repeat (apply Forall_cons; [unfold is_spin; auto|]); apply Forall_nil. Qed.

(** Which entries are lowered: those of a direction that half of the sites already took; never both of a site. *)
Theorem C19_entries : forall n x s i, spins n s -> i < n -> length x = n -> length (nth i x []) = 2 ->
  nth 0 (nth i (equal_up_down_spins x s) []) C0 = (nth 0 (nth i x []) C0 - RtoC (if n <=? 2 * ups (firstn i s) then huge else 0))%C /\
  nth 1 (nth i (equal_up_down_spins x s) []) C0 = (nth 1 (nth i x []) C0 - RtoC (if n <=? 2 * downs (firstn i s) then huge else 0))%C /\
  ~ (n <= 2 * ups (firstn i s) /\ n <= 2 * downs (firstn i s)).
Proof.
  intros n x s i [<- F] H Lx Lr. destruct (entries x s i F H Lx Lr) as (A & B & N).
  assert (M : forall (z : C) (b : bool), (z + RtoC (if b then LOG_ZERO else 0) = z - RtoC (if b then huge else 0))%C).
  { intros z b. rewrite log_zero_huge. destruct b; apply C_eq; unfold Re, Im, Cplus, Cminus, RtoC; cbn [fst snd]; ring. }
  split; [rewrite A; apply M|split; [rewrite B; apply M|exact N]].
Qed.
Print Assumptions C19_entries.
Example C19_entries_ex : 4 <=? 2 * ups (firstn 2 [1; 1; -1; -1]%Z) = true /\ 4 <=? 2 * downs (firstn 2 [1; 1; -1; -1]%Z) = false.
Proof. split; reflexivity. Qed.

(** Along the row-major order the masked machine stays autoregressive and normalised. *)
Theorem C19_machine_normalised : forall n net, autoregressive n (seq 0 n) net -> (forall s i, length (net s i) = 2) ->
  autoregressive n (seq 0 n) (masked_net net) /\
  Rsum (fun s => Cnorm2 (Cexp (predictions (masked_net net) s))) (spin_configs n) = 1%R.
Proof.
  intros n net A L. split; [exact (masked_autoregressive n net A)|exact (masked_normalised n net A L)].
Qed.
Print Assumptions C19_machine_normalised.
Definition copying_net (s : list Z) (i : nat) : list C := match i with O => [C0; C1] | S j => [RtoC (IZR (nth j s 0%Z)); C0] end.
Example C19_machine_normalised_ex : autoregressive 4 (seq 0 4) copying_net /\ forall s i, length (copying_net s i) = 2.
Proof.
  split; [|intros s [|i]; reflexivity]. intros b i a E s t Ls Lt H. apply seq_split in E. destruct E as [-> Hi].
  destruct i as [|i]; [reflexivity|]. unfold copying_net. rewrite (H i); [reflexivity|]. apply in_seq. lia.
Qed.

(** The weight outside the sector is at most 2^n exp(2 (D - 10^300)), where D bounds how much the network prefers one direction. *)
Theorem C19_weight_in_sector : forall n net D, autoregressive (2 * n) (seq 0 (2 * n)) net -> (forall s i, length (net s i) = 2) ->
  (forall s i, spins (2 * n) s -> i < 2 * n -> (Rabs (Re (nth 0 (net s i) C0) - Re (nth 1 (net s i) C0)) <= D)%R) ->
  (forall s, spins (2 * n) s -> ups s <> downs s -> (Cnorm2 (Cexp (predictions (masked_net net) s)) <= exp (2 * (D - huge)))%R) /\
  (1 - INR (length (spin_configs (2 * n))) * exp (2 * (D - huge)) <=
   Rsum (fun s => Cnorm2 (Cexp (predictions (masked_net net) s))) (filter (fun s => ups s =? downs s) (spin_configs (2 * n))) <= 1)%R.
Proof.
  intros n net D A L H. replace (D - huge)%R with (D + LOG_ZERO)%R by (rewrite log_zero_huge; ring). split.
  - intros s Sp N. destruct Sp as [Ls Fs]. apply (outside_bound net s D).
    + now split.
    + intros i. apply L.
    + intros i Hi. apply H; [now split|lia].
    + pose proof (ups_downs s Fs). lia.
  - exact (outside_total net n D A L H).
Qed.
Print Assumptions C19_weight_in_sector.
Example C19_weight_in_sector_ex : forall s i, spins (2 * 2) s -> i < 2 * 2 -> (Rabs (Re (nth 0 (copying_net s i) C0) - Re (nth 1 (copying_net s i) C0)) <= 1)%R.
Proof.
  intros s i [Ls Fs] Hi. destruct i as [|i]; cbn [copying_net nth].
  - unfold Re, C0, C1. cbn [fst]. rewrite Rabs_left; lra.
  - rewrite Forall_forall in Fs. assert (Q : is_spin (nth i s 0%Z)) by (apply Fs; apply nth_In; lia).
    unfold Re, C0, RtoC. cbn [fst]. destruct Q as [-> | ->]; unfold Rabs; destruct (Rcase_abs _); lra.
Qed.

(** Along another order the mask looks at sites that have not been visited: the zigzag order of the 3 x 3 grid. *)
Definition flat_zigzag3 : list nat := [0; 1; 3; 6; 4; 2; 5; 7; 8].
Theorem C19_zigzag_refuted : exists net, zigzag [3; 3] = Ok (map (fun k => (Z.of_nat (k / 3), Z.of_nat (k mod 3))) flat_zigzag3) /\
  autoregressive 9 flat_zigzag3 net /\ (forall s i, length (net s i) = 2) /\ ~ autoregressive 9 flat_zigzag3 (masked_net net).
Proof.
  exists (fun _ _ => [C0; C0]). split; [vm_compute; reflexivity|]. split; [intros b i a _ s t _ _ _; reflexivity|]. split; [reflexivity|].
  intros A. specialize (A [0; 1; 3] 6 [4; 2; 5; 7; 8] eq_refl [1; 1; 1; 1; 1; 1; 1; 1; 1]%Z [1; 1; -1; 1; -1; 1; 1; 1; 1]%Z eq_refl eq_refl).
  specialize (A ltac:(intros i Hi; cbn in Hi; repeat (destruct Hi as [<-|Hi]; [reflexivity|]); contradiction)).
  rewrite !masked_row in A by (cbn; lia).
  apply (f_equal (fun l => Re (nth 0 l C0))) in A.
  replace (nth 6 (reached_half [1; 1; 1; 1; 1; 1; 1; 1; 1]%Z) []) with [true; false] in A by (vm_compute; reflexivity).
  replace (nth 6 (reached_half [1; 1; -1; 1; -1; 1; 1; 1; 1]%Z) []) with [false; false] in A by (vm_compute; reflexivity).
  cbn [map2 nth] in A. unfold Re, Cplus, RtoC, C0 in A. cbn [fst] in A. pose proof LOG_ZERO_neg. lra.
Qed.
Print Assumptions C19_zigzag_refuted.

(** In binary32, which is what the code computes with, every entry that should be left alone becomes NaN and every other entry minus infinity. *)
Definition finite32 (z : spec_float) : Prop := match z with S754_zero _ | S754_finite _ _ _ => True | _ => False end.
Theorem C19_float32_mask_refuted : forall n x s i c, spins n s -> i < n -> length x = n -> length (nth i x []) = 2 -> c < 2 ->
  finite32 (nth c (nth i x []) (S754_zero false)) ->
  nth c (nth i (f32_equal_up_down_spins x s) []) (S754_zero false) =
  if n <=? 2 * (if c =? 0 then ups (firstn i s) else downs (firstn i s)) then S754_infinity true else S754_nan.
Proof. intros n x s i c [<- F] H Lx Lr Hc Fin. exact (f32_layer x s i c (conj eq_refl F) H Lx Lr Hc Fin). Qed.
Print Assumptions C19_float32_mask_refuted.
Example C19_float32_mask_ex : f32_equal_up_down_spins [[f32_of_Z 3; f32_of_Z (-2)]; [f32_of_Z 5; f32_of_Z 0]] [1; -1]%Z =
  [[S754_nan; S754_nan]; [S754_infinity true; S754_nan]].
Proof. vm_compute. reflexivity. Qed.
Example C19_float32_numbers_ex : f32_of_Z 3 = S754_finite false 12582912 (-22) /\ f32_of_Z (-1) = S754_finite true 8388608 (-23) /\ f32_of_Z 16777217 = S754_finite false 8388608 1 /\
  f32_LOG_ZERO = S754_infinity true /\ f32_of_Z 0 = S754_zero false.
Proof. vm_compute. auto. Qed.

(** So log psi is NaN for every configuration, whatever the network says. *)
Theorem C19_float32_nan_refuted : forall norm n re im s, spins n s -> 0 < n -> length re = n -> length im = n ->
  Forall (fun row => length row = 2) re -> Forall (fun row => length row = 2) im ->
  f32_predictions norm re im s = S754_nan.
Proof. intros norm n re im s [<- F] H Lr Li Fr Fi. exact (f32_nan norm re im s (conj eq_refl F) H Lr Li Fr Fi). Qed.
Print Assumptions C19_float32_nan_refuted.
Example C19_float32_nan_ex : spins 2 [1; -1]%Z /\ length [[f32_of_Z 3; f32_of_Z (-2)]; [f32_of_Z 5; f32_of_Z 0]] = 2.
Proof. split; [|reflexivity]. split; [reflexivity|]. repeat (apply Forall_cons; [unfold is_spin; auto|]); apply Forall_nil. Qed.
