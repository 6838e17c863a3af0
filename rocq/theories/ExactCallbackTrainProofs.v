(** Training with the callbacks of exact training. *)
From Coq Require Import String List ZArith Reals Bool Arith Lia Lra Permutation.
From Verif Require Import Base Cplx LatticeSpec ExactUtilsModel ExactUtilsProofs IsingModel AutoregressiveSpec AutoregressiveProofs ObservableModel ObservableSpec ObservableProofs
  ExactModel ExactSpec ExactProofs ExactGradientProofs ExactGeneratorProofs ExactSamplerProofs CallbackModel ExactCallbackModel ExactCallbackSpec ExactCallbackProofs.
Import ListNotations.
Local Open Scope nat_scope.

Definition place (cyc B g : nat) : nat := ((g + cyc - 1) mod cyc + 1) * B.

Lemma place_spec cyc B N g : 0 < B -> N = cyc * B -> 0 < N ->
  (place cyc B g <? N) = negb (g mod cyc =? 0) /\ (g mod cyc <> 0 -> place cyc B g = g mod cyc * B).
Proof.
  intros HB HN HN0. assert (C0 : cyc <> 0) by (intros ->; lia). unfold place.
  destruct (Nat.eqb_spec (g mod cyc) 0) as [E|E].
  - split; [|contradiction]. apply Nat.ltb_ge. apply Nat.mod_divides in E; [|exact C0]. destruct E as (q & ->).
    replace (cyc * q + cyc - 1) with (cyc - 1 + q * cyc) by nia. rewrite Nat.mod_add by exact C0. rewrite Nat.mod_small by lia. nia.
  - assert (M : (g + cyc - 1) mod cyc = g mod cyc - 1).
    { pose proof (Nat.div_mod g cyc C0) as D. pose proof (Nat.mod_upper_bound g cyc C0) as U.
      replace (g + cyc - 1) with (g mod cyc - 1 + (g / cyc + 1) * cyc) by nia. rewrite Nat.mod_add by exact C0. apply Nat.mod_small. lia. }
    pose proof (Nat.mod_upper_bound g cyc C0) as U. rewrite M. split; [|intros _; f_equal; lia].
    apply Nat.ltb_lt. rewrite HN. apply Nat.mul_lt_mono_pos_r; lia.
Qed.
Lemma place_next cyc B g : 0 < cyc -> g mod cyc * B + B = place cyc B (S g).
Proof.
  intros C0. unfold place. replace (S g + cyc - 1) with (g + 1 * cyc) by lia. rewrite Nat.mod_add by lia. lia.
Qed.
Lemma start_same cyc g : 0 < cyc -> g mod cyc <> 0 -> cycle_start cyc g = cycle_start cyc (g - 1).
Proof.
  intros C0 E. unfold cycle_start. f_equal. pose proof (Nat.div_mod g cyc ltac:(lia)) as D. pose proof (Nat.mod_upper_bound g cyc ltac:(lia)).
  apply (Nat.div_unique (g - 1) cyc (g / cyc) (g mod cyc - 1)); lia.
Qed.
Lemma start_here cyc g : 0 < cyc -> g mod cyc = 0 -> cycle_start cyc g = g.
Proof. intros C0 E. unfold cycle_start. pose proof (Nat.div_mod g cyc ltac:(lia)). lia. Qed.

(** One batch, generator and gradient step; [run] says what the callbacks do. *)
Lemma one_batch n H B t s g b lw le lp next cs : 0 < B -> 2 ^ n mod B = 0 ->
  position s = place (cycle_of n B) B g -> machine (world_of s) = lp -> callbacks_of s = cs ->
  waiting n H B t (variation (world_of s)) (time (world_of s)) ->
  (g mod cycle_of n B <> 0 -> ready n H lw le B t (variation (world_of s)) (time (world_of s))) ->
  exists v now, let fresh := g mod cycle_of n B =? 0 in
    let i := g mod cycle_of n B * B in
    ready n H (if fresh then lp else lw) (if fresh then lp else le) B t v now /\
    train_on_batch b next s =
      (do r <- call_exact (fun c => exact_on_batch_end c b) cs {| variation := v; machine := next; time := now |} [];
       let '(cs, w, l) := r in
       Ok ({| world_of := w; position := place (cycle_of n B) B (S g); callbacks_of := cs |},
           (slice (basis n) i (i + B), slice (map (gradient_coefficient n H (if fresh then lp else le)) (basis n)) i (i + B)), l)).
Proof.
  intros HB HD Hp Hm Hc HW HR.
  assert (HN : 2 ^ n = cycle_of n B * B).
  { unfold cycle_of. pose proof (Nat.div_mod (2 ^ n) B ltac:(lia)). lia. }
  pose proof (pow2_pos n) as P2. destruct (place_spec (cycle_of n B) B (2 ^ n) g HB HN P2) as [PL PV].
  assert (C0 : 0 < cycle_of n B) by (destruct (cycle_of n B); lia).
  unfold train_on_batch. rewrite (ge_n _ _ _ (proj1 HW)). unfold num_of_states. rewrite Hp, PL, Hm, Hc.
  destruct (Nat.eqb_spec (g mod cycle_of n B) 0) as [E|E]; cbn [negb].
  - destruct (evaluate_ready n H B t _ _ lp HW) as (v & Ev & Rv). rewrite Ev. cbn [bind].
    exists v, (after 3 (time (world_of s))). split; [exact Rv|].
    destruct Rv as (HH & _). rewrite (h_batch _ _ _ _ _ _ HH), (ge_states _ _ _ (h_good _ _ _ _ _ _ HH)), (h_coefficients _ _ _ _ _ _ HH).
    rewrite <- place_next by exact C0. rewrite E. reflexivity.
  - specialize (HR E). exists (variation (world_of s)), (time (world_of s)). split; [exact HR|]. cbn [bind].
    destruct HR as (HH & _). rewrite (h_batch _ _ _ _ _ _ HH), (ge_states _ _ _ (h_good _ _ _ _ _ _ HH)), (h_coefficients _ _ _ _ _ _ HH).
    rewrite (PV E). rewrite <- place_next by exact C0. reflexivity.
Qed.

(** * The default callbacks *)
Section Default.
  Context (n : nat) (H : list Z -> list Z -> C) (B : nat) (t : nat -> R) (e1 : exact) (e0 : option R) (machines : nat -> list Z -> C).
  Context (HB : 0 < B) (HD : 2 ^ n mod B = 0) (G1 : good_exact n H e1).
  Let cyc := cycle_of n B.

  Definition state_ok (in_batch : bool) (g : nat) (s : training) : Prop :=
    position s = place cyc B g /\ machine (world_of s) = machines g /\ callbacks_of s = default_exact_callbacks e1 e0 in_batch /\
    waiting n H B t (variation (world_of s)) (time (world_of s)) /\
    (g <> 0 -> ready n H (machines (cycle_start cyc (g - 1))) (machines (cycle_start cyc (g - 1))) B t (variation (world_of s)) (time (world_of s))).

  Definition stats_of (m : list Z -> C) : logs := energy_logs n H m e0 ++ magnetisation_logs n m.
  Definition batch_of_step (g : nat) : list (list Z) * list C :=
    (slice (basis n) (g mod cyc * B) (g mod cyc * B + B),
     slice (map (gradient_coefficient n H (machines (cycle_start cyc g))) (basis n)) (g mod cyc * B) (g mod cyc * B + B)).

  Lemma cyc_pos : 0 < cyc.
  Proof. unfold cyc, cycle_of. pose proof (Nat.div_mod (2 ^ n) B ltac:(lia)). pose proof (pow2_pos n). destruct (2 ^ n / B); lia. Qed.

  Lemma fresh_machine g : (if g mod cyc =? 0 then machines g else machines (cycle_start cyc (g - 1))) = machines (cycle_start cyc g).
  Proof.
    pose proof cyc_pos. destruct (Nat.eqb_spec (g mod cyc) 0) as [E|E]; [now rewrite (start_here cyc g)|now rewrite (start_same cyc g)].
  Qed.

  Lemma step_batch g b s : state_ok true g s ->
    exists s' ts, train_on_batch b (machines (S g)) s =
        Ok (s', batch_of_step g, (if b mod cyc =? 0 then stats_of (machines (cycle_start cyc g)) else []) ++ ts) /\
      timed t ((b + 1) mod cyc =? 0) ts /\ state_ok true (S g) s' /\
      ready n H (machines (cycle_start cyc g)) (machines (cycle_start cyc g)) B t (variation (world_of s')) (time (world_of s')).
  Proof.
    intros (Hp & Hm & Hc & HW & HR). pose proof cyc_pos as C0.
    destruct (one_batch n H B t s g b (machines (cycle_start cyc (g - 1))) (machines (cycle_start cyc (g - 1))) (machines g) (machines (S g))
      (default_exact_callbacks e1 e0 true) HB HD Hp Hm Hc HW) as (v & now & Rv & Et).
    { intros E. apply HR. intros ->. fold cyc in E. now rewrite Nat.mod_0_l in E by lia. }
    fold cyc in Rv, Et. rewrite fresh_machine in Rv. rewrite Et. cbv zeta.
    destruct (default_batch n H _ _ B t {| variation := v; machine := machines (S g); time := now |} e1 e0 b Rv G1) as (w' & ts & Ec & Ht & Vw & Mw & Rw).
    rewrite Ec. cbn [bind]. eexists _, ts. rewrite fresh_machine. split; [reflexivity|]. split; [exact Ht|].
    split; [|exact Rw]. split; [reflexivity|]. split; [exact Mw|]. split; [reflexivity|]. split; [apply (ready_waiting _ _ _ _ _ _ _ _ Rw)|].
    intros _. replace (S g - 1) with g by lia. exact Rw.
  Qed.
  Lemma step_batch_silent g b s : state_ok false g s ->
    exists s', train_on_batch b (machines (S g)) s = Ok (s', batch_of_step g, []) /\ state_ok false (S g) s'.
  Proof.
    intros (Hp & Hm & Hc & HW & HR). pose proof cyc_pos as C0.
    destruct (one_batch n H B t s g b (machines (cycle_start cyc (g - 1))) (machines (cycle_start cyc (g - 1))) (machines g) (machines (S g))
      (default_exact_callbacks e1 e0 false) HB HD Hp Hm Hc HW) as (v & now & Rv & Et).
    { intros E. apply HR. intros ->. fold cyc in E. now rewrite Nat.mod_0_l in E by lia. }
    fold cyc in Rv, Et. rewrite fresh_machine in Rv. rewrite Et. cbv zeta.
    rewrite (default_batch_silent n H _ _ B t {| variation := v; machine := machines (S g); time := now |} e1 e0 b Rv).
    cbn [bind]. eexists. rewrite fresh_machine. split; [reflexivity|]. split; [reflexivity|]. split; [reflexivity|]. split; [reflexivity|].
    split; [apply (ready_waiting _ _ _ _ _ _ _ _ Rv)|]. intros _. replace (S g - 1) with g by lia. exact Rv.
  Qed.

  (** An epoch, and all epochs. *)
  Definition epoch_logs (g b0 : nat) (ls : list logs) : Prop :=
    forall j l, nth_error ls j = Some l -> exists ts,
      l = (if (b0 + j) mod cyc =? 0 then stats_of (machines (cycle_start cyc (g + j))) else []) ++ ts /\ timed t ((b0 + j + 1) mod cyc =? 0) ts.
  Lemma train_default k : forall g b s, state_ok true g s ->
    exists s' ls, train_exact machines g b k s = Ok (s', map batch_of_step (seq g k), ls) /\ length ls = k /\ epoch_logs g b ls /\ state_ok true (g + k) s'.
  Proof.
    induction k as [|k IH]; intros g b s Hs; cbn [train_exact seq map].
    - exists s, []. split; [reflexivity|]. split; [reflexivity|]. split; [|now rewrite Nat.add_0_r]. intros [|j] l E; discriminate E.
    - destruct (step_batch g b s Hs) as (s1 & ts & E1 & Ht & H1 & _). rewrite E1. cbn [bind].
      destruct (IH (S g) (S b) s1 H1) as (s' & ls & E' & L' & A' & H'). rewrite E'. cbn [bind].
      eexists s', _. split; [reflexivity|]. split; [cbn [length]; now rewrite L'|]. split; [|now replace (g + S k) with (S g + k) by lia].
      intros [|j] l El; cbn [nth_error] in El.
      + injection El as <-. exists ts. rewrite !Nat.add_0_r. now split.
      + destruct (A' j l El) as (ts' & F & T'). exists ts'. replace (b + S j) with (S b + j) by lia. replace (g + S j) with (S g + j) by lia. now split.
  Qed.
  Lemma train_silent k : forall g b s, state_ok false g s ->
    exists s', train_exact machines g b k s = Ok (s', map batch_of_step (seq g k), repeat [] k) /\ state_ok false (g + k) s'.
  Proof.
    induction k as [|k IH]; intros g b s Hs; cbn [train_exact seq map repeat].
    - exists s. split; [reflexivity|now rewrite Nat.add_0_r].
    - destruct (step_batch_silent g b s Hs) as (s1 & E1 & H1). rewrite E1. cbn [bind].
      destruct (IH (S g) (S b) s1 H1) as (s' & E' & H'). rewrite E'. cbn [bind].
      eexists. split; [reflexivity|]. now replace (g + S k) with (S g + k) by lia.
  Qed.

  Lemma fit_default steps epochs : forall epoch s, state_ok true (epoch * steps) s ->
    exists s' all, fit_exact machines steps epochs epoch s = Ok (s', all) /\ length all = epochs /\
      forall k ls l, nth_error all k = Some (ls, l) -> l = [] /\ length ls = steps /\ epoch_logs ((epoch + k) * steps) 0 ls.
  Proof.
    induction epochs as [|m IH]; intros epoch s Hs; cbn [fit_exact].
    - exists s, []. split; [reflexivity|]. split; [reflexivity|]. intros [|k] ls l E; discriminate E.
    - destruct (train_default steps (epoch * steps) 0 s Hs) as (s1 & ls & E1 & L1 & A1 & H1). rewrite E1. cbn [bind].
      destruct H1 as (Hp & Hm & Hc & HW & HR). rewrite Hc, default_epoch_silent. cbn [bind].
      assert (H2 : state_ok true (S epoch * steps) {| world_of := world_of s1; position := position s1; callbacks_of := default_exact_callbacks e1 e0 true |}).
      { replace (S epoch * steps) with (epoch * steps + steps) by lia. split; [exact Hp|]. split; [exact Hm|]. split; [reflexivity|]. split; [exact HW|exact HR]. }
      destruct (IH (S epoch) _ H2) as (s' & all & E' & L' & A'). rewrite E'. cbn [bind fst snd].
      eexists s', _. split; [reflexivity|]. split; [cbn [length]; now rewrite L'|].
      intros [|k] ls' l El; cbn [nth_error] in El.
      + injection El as <- <-. split; [reflexivity|]. split; [exact L1|]. now rewrite Nat.add_0_r.
      + replace (epoch + S k) with (S epoch + k) by lia. apply (A' k ls' l El).
  Qed.
  Lemma fit_silent steps epochs : 0 < steps -> forall epoch s, state_ok false (epoch * steps) s ->
    exists s' all, fit_exact machines steps epochs epoch s = Ok (s', all) /\ length all = epochs /\
      forall k ls l, nth_error all k = Some (ls, l) -> ls = repeat [] steps /\
        exists ts, l = stats_of (machines (cycle_start cyc ((epoch + k) * steps + steps - 1))) ++ ts /\ timed t true ts.
  Proof.
    intros Hst. induction epochs as [|m IH]; intros epoch s Hs; cbn [fit_exact].
    - exists s, []. split; [reflexivity|]. split; [reflexivity|]. intros [|k] ls l E; discriminate E.
    - destruct (train_silent steps (epoch * steps) 0 s Hs) as (s1 & E1 & H1). rewrite E1. cbn [bind].
      destruct H1 as (Hp & Hm & Hc & HW & HR). rewrite Hc.
      destruct (default_epoch n H _ _ B t (world_of s1) e1 e0 epoch (HR ltac:(lia)) G1) as (w' & ts & Ec & Ht & Vw & Mw & Rw). rewrite Ec. cbn [bind].
      assert (H2 : state_ok false (S epoch * steps) {| world_of := w'; position := position s1; callbacks_of := default_exact_callbacks e1 e0 false |}).
      { replace (S epoch * steps) with (epoch * steps + steps) by lia. split; [exact Hp|]. split; [cbn [world_of]; now rewrite Mw|]. split; [reflexivity|].
        split; [apply (ready_waiting _ _ _ _ _ _ _ _ Rw)|intros _; exact Rw]. }
      destruct (IH (S epoch) _ H2) as (s' & all & E' & L' & A'). rewrite E'. cbn [bind fst snd].
      eexists s', _. split; [reflexivity|]. split; [cbn [length]; now rewrite L'|].
      intros [|k] ls' l El; cbn [nth_error] in El.
      + injection El as <- <-. split; [reflexivity|]. exists ts. rewrite Nat.add_0_r. now split.
      + replace (epoch + S k) with (S epoch + k) by lia. apply (A' k ls' l El).
  Qed.
End Default.

(** * With MachineUpdated in front *)
Section Updated.
  Context (n : nat) (H : list Z -> list Z -> C) (B : nat) (t : nat -> R) (e1 : exact) (e0 : option R) (machines : nat -> list Z -> C) (u : bool).
  Context (HB : 0 < B) (HD : 2 ^ n mod B = 0) (G1 : good_exact n H e1).
  Let cyc := cycle_of n B.
  Definition updated_callbacks := MachineUpdated true u :: default_exact_callbacks e1 e0 true.

  Definition updated_ok (g : nat) (s : training) : Prop :=
    position s = place cyc B g /\ machine (world_of s) = machines g /\ callbacks_of s = updated_callbacks /\
    waiting n H B t (variation (world_of s)) (time (world_of s)) /\
    (g <> 0 -> ready n H (machines g) (if u then machines g else machines (cycle_start cyc (g - 1))) B t (variation (world_of s)) (time (world_of s))).

  Definition updated_batch (g : nat) : list (list Z) * list C :=
    (slice (basis n) (g mod cyc * B) (g mod cyc * B + B),
     slice (map (gradient_coefficient n H (machines (if u then g else cycle_start cyc g))) (basis n)) (g mod cyc * B) (g mod cyc * B + B)).
  Definition updated_stats (g : nat) : logs :=
    energy_logs n H (machines (if u then S g else cycle_start cyc g)) e0 ++ magnetisation_logs n (machines (S g)).

  Lemma step_updated g b s : updated_ok g s ->
    exists s' ts, train_on_batch b (machines (S g)) s = Ok (s', updated_batch g, (if b mod cyc =? 0 then updated_stats g else []) ++ ts) /\
      timed t ((b + 1) mod cyc =? 0) ts /\ updated_ok (S g) s'.
  Proof.
    intros (Hp & Hm & Hc & HW & HR). pose proof (cyc_pos n B HB HD) as C0. fold cyc in C0.
    destruct (one_batch n H B t s g b (machines g) (if u then machines g else machines (cycle_start cyc (g - 1))) (machines g) (machines (S g))
      updated_callbacks HB HD Hp Hm Hc HW) as (v & now & Rv & Et).
    { intros E. apply HR. intros ->. fold cyc in E. now rewrite Nat.mod_0_l in E by lia. }
    fold cyc in Rv, Et.
    assert (F : (if g mod cyc =? 0 then machines g else if u then machines g else machines (cycle_start cyc (g - 1))) =
                machines (if u then g else cycle_start cyc g)).
    { destruct u; [now destruct (g mod cyc =? 0)|]. apply (fresh_machine n B machines HB HD). }
    rewrite F in Rv, Et.
    assert (W : exists w2, exact_on_batch_end (MachineUpdated true u) b {| variation := v; machine := machines (S g); time := now |} [] =
        Ok (MachineUpdated true u, w2, []) /\ machine w2 = machines (S g) /\
        ready n H (machines (S g)) (machines (if u then S g else cycle_start cyc g)) B t (variation w2) (time w2)).
    { cbn [exact_on_batch_end]. unfold update_machine. cbn [machine time variation]. destruct u.
      - destruct (evaluate_ready n H B t v now (machines (S g)) (ready_waiting _ _ _ _ _ _ _ _ Rv)) as (v2 & E2 & R2). rewrite E2. cbn [bind].
        eexists. split; [reflexivity|]. split; [reflexivity|exact R2].
      - destruct (wave_ready n H _ _ B t v now (machines (S g)) Rv) as (v2 & E2 & R2). rewrite E2. cbn [bind].
        eexists. split; [reflexivity|]. split; [reflexivity|exact R2]. }
    destruct W as (w2 & E2 & M2 & R2). rewrite Et. unfold updated_callbacks at 1. cbn [call_exact]. rewrite E2. cbn [bind].
    destruct (default_batch n H _ _ B t w2 e1 e0 b R2 G1) as (w' & ts & Ec & Ht & Vw & Mw & Rw). rewrite Ec. cbn [bind].
    eexists _, ts. split; [reflexivity|]. split; [exact Ht|]. split; [reflexivity|]. cbn [world_of position callbacks_of].
    split; [now rewrite Mw|]. split; [reflexivity|]. split; [apply (ready_waiting _ _ _ _ _ _ _ _ Rw)|].
    intros _. replace (S g - 1) with g by lia. destruct u; exact Rw.
  Qed.
  Lemma train_updated k : forall g b s, updated_ok g s ->
    exists s' ls, train_exact machines g b k s = Ok (s', map updated_batch (seq g k), ls) /\ length ls = k /\
      (forall j l, nth_error ls j = Some l -> exists ts,
        l = (if (b + j) mod cyc =? 0 then updated_stats (g + j) else []) ++ ts /\ timed t ((b + j + 1) mod cyc =? 0) ts) /\ updated_ok (g + k) s'.
  Proof.
    induction k as [|k IH]; intros g b s Hs; cbn [train_exact seq map].
    - exists s, []. split; [reflexivity|]. split; [reflexivity|]. split; [|now rewrite Nat.add_0_r]. intros [|j] l E; discriminate E.
    - destruct (step_updated g b s Hs) as (s1 & ts & E1 & Ht & H1). rewrite E1. cbn [bind].
      destruct (IH (S g) (S b) s1 H1) as (s' & ls & E' & L' & A' & H'). rewrite E'. cbn [bind].
      eexists s', _. split; [reflexivity|]. split; [cbn [length]; now rewrite L'|]. split; [|now replace (g + S k) with (S g + k) by lia].
      intros [|j] l El; cbn [nth_error] in El.
      + injection El as <-. exists ts. rewrite !Nat.add_0_r. now split.
      + destruct (A' j l El) as (ts' & F & T'). exists ts'. replace (b + S j) with (S b + j) by lia. replace (g + S j) with (S g + j) by lia. now split.
  Qed.
End Updated.

(** * exact_evaluate *)
Lemma evaluate_default n H B t v e1 e0 in_batch lp : waiting n H B t v t -> 0 < B -> 2 ^ n mod B = 0 -> good_exact n H e1 ->
  exists w' ts, exact_evaluate (default_exact_callbacks e1 e0 in_batch) {| variation := v; machine := lp; time := t |} =
      Ok (default_exact_callbacks e1 e0 in_batch, w', stats_of n H e0 lp ++ ts) /\
    timed t (negb in_batch || (cycle_of n B =? 1)) ts /\ machine w' = lp.
Proof.
  intros HW HB HD G1. pose proof (cyc_pos n B HB HD) as C0. unfold exact_evaluate. cbn [machine variation time].
  destruct (evaluate_ready n H B t v t lp HW) as (v' & E & R). rewrite E. cbn [bind].
  rewrite (cycle_arrays n H lp lp B _ (proj1 R)).
  assert (M0 : (cycle_of n B mod cycle_of n B =? 0) = true) by (apply Nat.eqb_eq, Nat.mod_same; lia).
  assert (M1 : ((cycle_of n B + 1) mod cycle_of n B =? 0) = (cycle_of n B =? 1)).
  { replace (cycle_of n B + 1) with (1 + 1 * cycle_of n B) by lia. rewrite Nat.mod_add by lia.
    destruct (Nat.eqb_spec (cycle_of n B) 1) as [->|N]; [reflexivity|]. rewrite Nat.mod_small by lia. reflexivity. }
  unfold default_exact_callbacks, new_sigma_z, stats_of. cbn [call_exact exact_on_batch_end exact_on_epoch_end variation].
  pose proof (cycle_arrays n H lp lp B _ (proj1 R)) as CY.
  destruct in_batch; cbn [andb negb orb].
  - rewrite CY, M0. rewrite (energy_step n H lp lp B t _ _ e0 R). cbn [bind variation exact_on_epoch_end]. rewrite CY, M0.
    rewrite (sigma_z_step n H lp lp B t _ _ e1 _ R G1 (energy_logs_keys n H lp e0)). cbn [bind variation exact_on_epoch_end].
    rewrite CY, M1. fold (stats n H lp lp e0). destruct (cycle_of n B =? 1).
    + destruct (time_step n H lp lp B t {| variation := v'; machine := lp; time := after 3 t |} _ R (stats_no_times n H lp lp e0)) as (ts & Es & Ht).
      rewrite Es. cbn [bind fst snd exact_on_epoch_end]. eexists _, ts. split; [reflexivity|]. split; [exact Ht|reflexivity].
    + cbn [bind fst snd exact_on_epoch_end]. exists {| variation := v'; machine := lp; time := after 3 t |}, []. rewrite app_nil_r.
      split; [reflexivity|]. split; [|reflexivity]. exists 0%R, 0%R, 0%R, 0%R. split; [intros; lra|reflexivity].
  - cbn [bind exact_on_epoch_end variation]. rewrite (energy_step n H lp lp B t _ _ e0 R). cbn [bind exact_on_epoch_end variation].
    rewrite (sigma_z_step n H lp lp B t _ _ e1 _ R G1 (energy_logs_keys n H lp e0)). cbn [bind fst snd exact_on_epoch_end]. fold (stats n H lp lp e0).
    destruct (time_step n H lp lp B t {| variation := v'; machine := lp; time := after 3 t |} _ R (stats_no_times n H lp lp e0)) as (ts & Es & Ht).
    rewrite Es. cbn [bind fst snd]. eexists _, ts. split; [reflexivity|]. split; [exact Ht|reflexivity].
Qed.

(** * Observables *)
Lemma observable_epoch n H H2 lw le B t w o name k : ready n H lw le B t (variation w) (time w) -> good_exact n H2 o ->
  exists o', exact_on_epoch_end (ExactObservableCallback o name false) k w [] =
      Ok (ExactObservableCallback o' name false, w, [("observables/" ++ name, Re (expectation n H2 lw))%string]) /\ good_exact n H2 o'.
Proof.
  intros (HH & K & _) G. cbn [exact_on_epoch_end]. unfold add_observable_to_logs. rewrite K.
  rewrite (h_wave _ _ _ _ _ _ HH), (h_norm _ _ _ _ _ _ HH).
  destruct (local_energy_arrays n H2 lw o (probs (arrays (variation w))) G) as (naive & var & E & L & _). rewrite E. cbn [bind fst snd].
  eexists. rewrite result_energy_conj, Re_conj. split; [reflexivity|].
  destruct G as [Gn Gb Gd Gs Gc Gw Ge Gv]. constructor; cbn; auto. rewrite map_length. apply basis_length.
Qed.
