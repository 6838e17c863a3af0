(** Lemmas about the callbacks of exact training. *)
From Coq Require Import String List ZArith Reals Bool Arith Lia Lra Permutation.
From Verif Require Import Base Cplx LatticeSpec ExactUtilsModel ExactUtilsProofs IsingModel AutoregressiveSpec AutoregressiveProofs ObservableModel ObservableSpec ObservableProofs
  ExactModel ExactSpec ExactProofs ExactGradientProofs ExactGeneratorProofs ExactSamplerProofs CallbackModel ExactCallbackModel ExactCallbackSpec.
Import ListNotations.
Local Open Scope nat_scope.

Lemma wave_arrays n H lp e : good_exact n H e ->
  update_wave_function_arrays lp e = Ok (map lp (basis n), norm2 n lp, map (probability n lp) (basis n)).
Proof.
  intros G. destruct G as [Gn Gb Gd Gs Gc Gw Ge Gv]. unfold update_wave_function_arrays. rewrite Gn, Gs.
  rewrite (batch_loop_map _ lp (basis n)); auto using basis_length. cbn [bind]. cbv zeta.
  assert (Nb : basis n <> []).
  { intros E. apply (f_equal (@length _)) in E. rewrite basis_length in E. pose proof (pow2_pos n). simpl in E. lia. }
  assert (Nm : map lp (basis n) <> []) by (intros E; apply map_eq_nil in E; contradiction).
  destruct (normalised_by_norm (map lp (basis n)) Nm) as (l & El & Eexp & _).
  change (fun z => Cscale 2 z) with (Cscale 2) in El. rewrite El. cbn [bind].
  assert (En : exp l = norm2 n lp) by (rewrite Eexp, Rsum_map, norm2_basis; reflexivity).
  rewrite En. do 2 f_equal. rewrite !map_map. apply map_ext. intros s. unfold probability, born. rewrite Cnorm2_exp, <- En.
  unfold Rdiv. rewrite <- exp_Ropp, <- exp_plus. f_equal.
Qed.

(** [o] has the connections of an operator with matrix [H]; [lp] is the machine whose amplitudes are given. *)
Lemma local_energy_arrays n H lp o p : good_exact n H o ->
  exists naive var, update_local_energy (map lp (basis n)) (norm2 n lp) p o = Ok (map (contribution n H lp) (basis n), naive, result_energy n H lp, var) /\
    length naive = 2 ^ n /\
    (p = map (probability n lp) (basis n) -> var = mean_over n lp (fun s =>
      ((Re (local_energy n H lp s) - Re (expectation n H lp)) * (Re (local_energy n H lp s) - Re (expectation n H lp)))%R)).
Proof.
  intros G. destruct G as [Gn Gb Gd Gs Gc Gw Ge Gv]. unfold update_local_energy. rewrite Gn.
  rewrite (batch_loop_map _ (fun s => (contribution n H lp s, local_energy n H lp s)) (basis n)); auto using basis_length.
  2: { rewrite combine_length. lia. }
  2: { intros i Hi. apply mapM_rel.
       assert (F : Forall2 (good_column n H) (slice (basis n) i (i + batch_size o)) (slice (columns o) i (i + batch_size o))) by now apply Forall2_slice.
       assert (I : forall s, In s (slice (basis n) i (i + batch_size o)) -> In s (spin_configs n)).
       { intros s Hs. apply basis_in. now apply slice_in in Hs. }
       induction F as [|s col ss cols HP F IH]; constructor.
       - apply state_energy_ok; auto. apply I. now left.
       - apply IH. intros x Hx. apply I. now right. }
  cbn [bind]. cbv zeta. rewrite !map_map. cbn [fst snd].
  assert (Ecur : Csum (fun z => z) (map (fun s => contribution n H lp s) (basis n)) = result_energy n H lp).
  { rewrite Csum_map. unfold result_energy. apply Csum_perm, basis_perm. }
  rewrite Ecur. eexists _, _. split; [reflexivity|]. split; [now rewrite map_length, basis_length|].
  intros ->. unfold mean_over. rewrite <- (Rsum_perm _ _ _ (basis_perm n)). rewrite result_energy_conj. clear.
  induction (basis n) as [|s l IH]; [reflexivity|].
  cbn [map map2]. rewrite !Rsum_cons, IH. rewrite Re_minus, Re_conj. ring.
Qed.

(** The arrays of [e] hold the wave function of [lw] and the energy of [le]. *)
Record holds (n : nat) (H : list Z -> list Z -> C) (lw le : list Z -> C) (B : nat) (e : exact) : Prop := {
  h_good : good_exact n H e; h_batch : batch_size e = B;
  h_wave : wave_function e = map lw (basis n); h_norm : norm_squared e = norm2 n lw; h_probs : probs e = map (probability n lw) (basis n);
  h_energy : Re (ExactModel.current_energy e) = Re (expectation n H le);
  h_variance : current_variance e = mean_over n le (fun s =>
      ((Re (local_energy n H le s) - Re (expectation n H le)) * (Re (local_energy n H le s) - Re (expectation n H le)))%R);
  h_coefficients : grad_coefficients e = map (gradient_coefficient n H le) (basis n)
}.

Lemma machine_updated_holds n H lp e : good_exact n H e -> exists e', machine_updated lp e = Ok e' /\ holds n H lp lp (batch_size e) e'.
Proof.
  intros G. unfold machine_updated. rewrite (wave_arrays n H lp e G). cbn [bind].
  destruct (local_energy_arrays n H lp e (map (probability n lp) (basis n)) G) as (naive & var & E & L & V). rewrite E. cbn [bind].
  eexists. split; [reflexivity|].
  constructor; cbn [batch_size wave_function norm_squared probs ExactModel.current_energy current_variance grad_coefficients]; auto.
  - destruct G as [Gn Gb Gd Gs Gc Gw Ge Gv]. constructor; cbn; auto; rewrite map_length; apply basis_length.
  - now rewrite result_energy_conj, Re_conj.
  - transitivity (map (fun s => (contribution n H lp s - RtoC (probability n lp s) * result_energy n H lp)%C) (basis n)).
    + clear. induction (basis n) as [|s l IH]; [reflexivity|]. cbn [map map2]. now rewrite IH.
    + apply map_ext. intros s. apply coefficient_spec.
Qed.

Lemma wave_function_updated_holds n H lw le B lp e : holds n H lw le B e -> exists e', wave_function_updated lp e = Ok e' /\ holds n H lp le B e'.
Proof.
  intros [G Hb Hw Hn Hp He Hv Hc]. unfold wave_function_updated. rewrite (wave_arrays n H lp e G). cbn [bind]. eexists. split; [reflexivity|].
  constructor; cbn [batch_size wave_function norm_squared probs ExactModel.current_energy current_variance grad_coefficients]; auto.
  destruct G as [Gn Gb Gd Gs Gc Gw Ge Gv]. constructor; cbn; auto; rewrite map_length; apply basis_length.
Qed.

(** * The magnetisation *)
Lemma spin_length n s : In s (spin_configs n) -> List.length s = n.
Proof. intros Hs. apply spins_spin_string in Hs. tauto. Qed.

Lemma fdot_map {A} (f g : A -> R) l : fdot (map f l) (map g l) = Rsum (fun a => (g a * f a)%R) l.
Proof. unfold fdot. induction l as [|a l IH]; [reflexivity|]. cbn [map map2]. rewrite !Rsum_cons, IH. ring. Qed.

Lemma sigma_z_mean n H lw le B e e0 : holds n H lw le B e -> good_exact n H e0 ->
  fdot (sigma_z_vals e0) (probs e) = mean_over n lw magnetisation /\
  fdot (abs_sigma_z_vals e0) (probs e) = mean_over n lw (fun s => Rabs (magnetisation s)).
Proof.
  intros HH G0. unfold sigma_z_vals, abs_sigma_z_vals, total_spins, mean_over.
  rewrite (h_probs _ _ _ _ _ _ HH), (ge_states _ _ _ G0), (ge_n _ _ _ G0), !fdot_map.
  split; rewrite <- (Rsum_perm _ _ _ (basis_perm n)); apply Rsum_ext; intros s Hs; apply basis_in, spin_length in Hs;
    unfold magnetisation; rewrite Hs; [reflexivity|].
  unfold Rdiv. rewrite Rabs_mult. f_equal. f_equal. symmetry. apply Rabs_pos_eq.
  destruct n as [|n]; [cbn; rewrite Rinv_0; lra|]. left. apply Rinv_0_lt_compat, lt_0_INR. lia.
Qed.

Lemma probability_nonneg n lp s : (0 <= probability n lp s)%R.
Proof.
  unfold probability, born. apply Rmult_le_pos; [|left; apply Rinv_0_lt_compat, norm2_pos].
  unfold Cnorm2. nra.
Qed.
Lemma mean_over_le n lp f g : (forall s, In s (spin_configs n) -> f s <= g s)%R -> (mean_over n lp f <= mean_over n lp g)%R.
Proof. intros L. apply Rsum_le. intros s Hs. apply Rmult_le_compat_l; [apply probability_nonneg|auto]. Qed.
Lemma mean_over_const n lp k : mean_over n lp (fun _ => k) = k.
Proof.
  unfold mean_over. rewrite (Rsum_ext _ (fun s => (k * probability n lp s)%R)) by (intros; ring).
  rewrite Rsum_scal. replace (Rsum _ _) with 1%R; [ring|].
  rewrite <- (Rsum_perm _ _ _ (basis_perm n)). symmetry. rewrite <- (Rsum_map (probability n lp) (fun x => x)). apply Rsum_probability.
Qed.

(** * Worlds *)
(** The object holds the wave function of [lw] and the energy of [le]; the times are readings of the clock [t], earlier than now. *)
Definition ready (n : nat) (H : list Z -> list Z -> C) (lw le : list Z -> C) (B : nat) (t : nat -> R) (v : variational) (now : nat -> R) : Prop :=
  holds n H lw le B (arrays v) /\ norm_known v = true /\ energy_known v = true /\
  exists i j l k, i <= j /\ j <= l /\ l < k /\ started_at v = Some (t i) /\ wave_function_at v = Some (t j) /\ local_energy_at v = Some (t l) /\
    forall x, now x = t (k + x).
(** The same before the first evaluation. *)
Definition waiting (n : nat) (H : list Z -> list Z -> C) (B : nat) (t : nat -> R) (v : variational) (now : nat -> R) : Prop :=
  good_exact n H (arrays v) /\ batch_size (arrays v) = B /\ exists k, forall x, now x = t (k + x).

Lemma ready_waiting n H lw le B t v now : ready n H lw le B t v now -> waiting n H B t v now.
Proof.
  intros ([G Hb _ _ _ _ _ _] & _ & _ & i & j & l & k & _ & _ & _ & _ & _ & _ & T). split; [exact G|]. split; [exact Hb|]. now exists k.
Qed.
Lemma evaluate_ready n H B t v now lp : waiting n H B t v now ->
  exists v', machine_updated_at lp now v = Ok v' /\ ready n H lp lp B t v' (after 3 now).
Proof.
  intros (G & Hb & k & T). unfold machine_updated_at. destruct (machine_updated_holds n H lp (arrays v) G) as (e & E & HE). rewrite E. cbn [bind].
  eexists. split; [reflexivity|]. rewrite Hb in HE. split; [exact HE|]. split; [reflexivity|]. split; [reflexivity|].
  exists (k + 0), (k + 1), (k + 2), (k + 3). cbn [started_at wave_function_at local_energy_at]. rewrite !T.
  repeat (split; [lia || reflexivity|]). intros x. unfold after. rewrite T. f_equal. lia.
Qed.
Lemma wave_ready n H lw le B t v now lp : ready n H lw le B t v now ->
  exists v', update_wave_function_only lp v = Ok v' /\ ready n H lp le B t v' now.
Proof.
  intros (HH & _ & K & T). unfold update_wave_function_only. destruct (wave_function_updated_holds n H lw le B lp (arrays v) HH) as (e & E & HE).
  rewrite E. cbn [bind]. eexists. split; [reflexivity|]. split; [exact HE|]. split; [reflexivity|]. split; [exact K|exact T].
Qed.
Lemma ready_clock n H lw le B t v now : ready n H lw le B t v now -> ready n H lw le B t v (after 1 now).
Proof.
  intros (HH & K1 & K2 & i & j & l & k & A1 & A2 & A3 & S1 & S2 & S3 & T). split; [exact HH|]. split; [exact K1|]. split; [exact K2|].
  exists i, j, l, (k + 1). repeat (split; [lia || assumption|]). intros x. unfold after. rewrite T. f_equal. lia.
Qed.

Definition cycle_of (n B : nat) : nat := 2 ^ n / B.
Lemma cycle_arrays n H lw le B e : holds n H lw le B e -> num_of_batch_until_full_cycle e = cycle_of n B.
Proof. intros HH. unfold num_of_batch_until_full_cycle, num_of_states, cycle_of. now rewrite (ge_n _ _ _ (h_good _ _ _ _ _ _ HH)), (h_batch _ _ _ _ _ _ HH). Qed.

(** * The default callbacks *)
Definition stats (n : nat) (H : list Z -> list Z -> C) (lw le : list Z -> C) (e0 : option R) : logs := energy_logs n H le e0 ++ magnetisation_logs n lw.
(** The times of a log come from the clock in order. *)
Definition timed (t : nat -> R) (yes : bool) (l : logs) : Prop :=
  exists a b c now, (clock_monotone t -> a <= b <= c /\ c <= now)%R /\ l = if yes then time_logs a b c now else [].

Lemma energy_step n H lw le B t v now e0 : ready n H lw le B t v now -> add_energy_to_logs e0 v [] = Ok (energy_logs n H le e0).
Proof.
  intros (HH & _ & K & _). unfold add_energy_to_logs. rewrite K, (h_energy _ _ _ _ _ _ HH), (h_variance _ _ _ _ _ _ HH).
  destruct e0; reflexivity.
Qed.
Lemma sigma_z_step n H lw le B t v now e1 l : ready n H lw le B t v now -> good_exact n H e1 ->
  (forall k x, In (k, x) l -> k <> "observables/sigma_z"%string /\ k <> "observables/abs_sigma_z"%string) ->
  add_sigma_z_logs (sigma_z_vals e1) (abs_sigma_z_vals e1) v l = Ok (l ++ magnetisation_logs n lw).
Proof.
  intros (HH & _) G1 HL. unfold add_sigma_z_logs. destruct (sigma_z_mean n H lw le B (arrays v) e1 HH G1) as [-> ->]. f_equal.
  unfold magnetisation_logs. set (a := mean_over n lw _). set (b := mean_over n lw _). clearbody a b.
  induction l as [|(k & x) l IH]; [reflexivity|]. destruct (HL k x (or_introl eq_refl)) as [N1 N2].
  cbn [set_log app]. rewrite (proj2 (String.eqb_neq k _) N2). cbn [set_log]. rewrite (proj2 (String.eqb_neq k _) N1). f_equal. apply IH.
  intros k' x' I. apply (HL k' x'). now right.
Qed.
Lemma energy_logs_keys n H le e0 k x : In (k, x) (energy_logs n H le e0) -> k <> "observables/sigma_z"%string /\ k <> "observables/abs_sigma_z"%string.
Proof.
  unfold energy_logs. intros I. apply in_app_or in I. destruct I as [I|I].
  - destruct I as [E|[E|[]]]; injection E as <- _; split; discriminate.
  - destruct e0; [|destruct I]. destruct I as [E|[]]; injection E as <- _; split; discriminate.
Qed.
Lemma stats_no_times n H lw le e0 k x : In (k, x) (stats n H lw le e0) ->
  k <> "times/wave_function_update"%string /\ k <> "times/local_energy"%string /\ k <> "times/gradients"%string /\ k <> "times/total"%string.
Proof.
  unfold stats, energy_logs, magnetisation_logs. intros I. apply in_app_or in I. destruct I as [I|I].
  - apply in_app_or in I. destruct I as [I|I].
    + destruct I as [E|[E|[]]]; injection E as <- _; repeat split; discriminate.
    + destruct e0; [|destruct I]. destruct I as [E|[]]; injection E as <- _; repeat split; discriminate.
  - destruct I as [E|[E|[]]]; injection E as <- _; repeat split; discriminate.
Qed.
Lemma time_step n H lw le B t w l : ready n H lw le B t (variation w) (time w) ->
  (forall k x, In (k, x) l ->
    k <> "times/wave_function_update"%string /\ k <> "times/local_energy"%string /\ k <> "times/gradients"%string /\ k <> "times/total"%string) ->
  exists ts, add_exact_runtime_stats w l = Ok ({| variation := variation w; machine := machine w; time := after 1 (time w) |}, l ++ ts) /\ timed t true ts.
Proof.
  intros (HH & K1 & K2 & i & j & m & k & A1 & A2 & A3 & S1 & S2 & S3 & T) HL. unfold add_exact_runtime_stats. rewrite S1, S2, S3.
  exists (time_logs (t i) (t j) (t m) (t (k + 0))). rewrite T. split.
  - f_equal. f_equal. unfold time_logs. set (a := (t j - t i)%R). set (b := (t m - t j)%R). set (c := (t (k + 0)%nat - t m)%R). set (d := (t (k + 0)%nat - t i)%R).
    clearbody a b c d. induction l as [|(key & x) l IH]; [reflexivity|]. destruct (HL key x (or_introl eq_refl)) as (N1 & N2 & N3 & N4).
    cbn [set_log app]. rewrite (proj2 (String.eqb_neq key _) N1). cbn [set_log]. rewrite (proj2 (String.eqb_neq key _) N2).
    cbn [set_log]. rewrite (proj2 (String.eqb_neq key _) N3). cbn [set_log]. rewrite (proj2 (String.eqb_neq key _) N4).
    f_equal. apply IH. intros k' x' I. apply (HL k' x'). now right.
  - exists (t i), (t j), (t m), (t (k + 0)). split; [|reflexivity]. intros M. repeat split; apply M; lia.
Qed.

Lemma default_batch n H lw le B t w e1 e0 b : ready n H lw le B t (variation w) (time w) -> good_exact n H e1 ->
  exists w' ts, call_exact (fun c => exact_on_batch_end c b) (default_exact_callbacks e1 e0 true) w [] =
      Ok (default_exact_callbacks e1 e0 true, w', (if b mod cycle_of n B =? 0 then stats n H lw le e0 else []) ++ ts) /\
    timed t ((b + 1) mod cycle_of n B =? 0) ts /\ variation w' = variation w /\ machine w' = machine w /\
    ready n H lw le B t (variation w') (time w').
Proof.
  intros R G1. unfold default_exact_callbacks, new_sigma_z. cbn [call_exact exact_on_batch_end]. cbv zeta.
  rewrite (cycle_arrays n H lw le B _ (proj1 R)). cbn [andb].
  destruct (b mod cycle_of n B =? 0) eqn:Eb; cbn [andb].
  - rewrite (energy_step n H lw le B t _ _ e0 R). cbn [bind variation]. rewrite ?(cycle_arrays n H lw le B _ (proj1 R)).
    rewrite (sigma_z_step n H lw le B t _ _ e1 _ R G1 (energy_logs_keys n H le e0)). cbn [bind variation].
    rewrite Eb. cbn [bind]. rewrite ?(cycle_arrays n H lw le B _ (proj1 R)).
    fold (stats n H lw le e0). destruct ((b + 1) mod cycle_of n B =? 0).
    + destruct (time_step n H lw le B t w _ R (stats_no_times n H lw le e0)) as (ts & E & Ht). rewrite E. cbn [bind fst snd].
      eexists _, ts. split; [reflexivity|]. split; [exact Ht|]. split; [reflexivity|]. split; [reflexivity|]. cbn [variation time]. apply ready_clock, R.
    + cbn [bind fst snd]. exists w, []. rewrite app_nil_r. split; [reflexivity|]. split; [|now split].
      exists 0%R, 0%R, 0%R, 0%R. split; [intros; lra|reflexivity].
  - cbn [bind variation]. rewrite ?(cycle_arrays n H lw le B _ (proj1 R)), ?Eb. cbn [bind].
    rewrite ?(cycle_arrays n H lw le B _ (proj1 R)). destruct ((b + 1) mod cycle_of n B =? 0).
    + destruct (time_step n H lw le B t w [] R) as (ts & E & Ht); [intros ? ? []|]. rewrite E. cbn [bind fst snd].
      eexists _, ts. split; [reflexivity|]. split; [exact Ht|]. split; [reflexivity|]. split; [reflexivity|]. cbn [variation time]. apply ready_clock, R.
    + cbn [bind fst snd]. exists w, []. split; [reflexivity|]. split; [|now split].
      exists 0%R, 0%R, 0%R, 0%R. split; [intros; lra|reflexivity].
Qed.
Lemma default_batch_silent n H lw le B t w e1 e0 b : ready n H lw le B t (variation w) (time w) ->
  call_exact (fun c => exact_on_batch_end c b) (default_exact_callbacks e1 e0 false) w [] = Ok (default_exact_callbacks e1 e0 false, w, []).
Proof. intros R. reflexivity. Qed.
Lemma default_epoch n H lw le B t w e1 e0 k : ready n H lw le B t (variation w) (time w) -> good_exact n H e1 ->
  exists w' ts, call_exact (fun c => exact_on_epoch_end c k) (default_exact_callbacks e1 e0 false) w [] =
      Ok (default_exact_callbacks e1 e0 false, w', stats n H lw le e0 ++ ts) /\
    timed t true ts /\ variation w' = variation w /\ machine w' = machine w /\ ready n H lw le B t (variation w') (time w').
Proof.
  intros R G1. unfold default_exact_callbacks, new_sigma_z. cbn [call_exact exact_on_epoch_end].
  rewrite (energy_step n H lw le B t _ _ e0 R). cbn [bind].
  rewrite (sigma_z_step n H lw le B t _ _ e1 _ R G1 (energy_logs_keys n H le e0)). cbn [bind].
  fold (stats n H lw le e0). destruct (time_step n H lw le B t w _ R (stats_no_times n H lw le e0)) as (ts & E & Ht). rewrite E. cbn [bind fst snd].
  eexists _, ts. split; [reflexivity|]. split; [exact Ht|]. split; [reflexivity|]. split; [reflexivity|]. cbn [variation time]. apply ready_clock, R.
Qed.
Lemma default_epoch_silent w e1 e0 k :
  call_exact (fun c => exact_on_epoch_end c k) (default_exact_callbacks e1 e0 true) w [] = Ok (default_exact_callbacks e1 e0 true, w, []).
Proof. reflexivity. Qed.
