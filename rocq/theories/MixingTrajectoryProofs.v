(** The states of a chain after several sweeps. *)
From Coq Require Import List ZArith Reals Bool Arith Lia Lra Permutation.
From Verif Require Import Base Cplx LatticeSpec AutoregressiveSpec ObservableModel ObservableSpec ObservableProofs
  ExactModel ExactSpec ExactProofs MetropolisModel MetropolisSpec MetropolisProofs MetropolisGlobalProofs MetropolisUniqueProofs
  MixingSpec MixingProofs MixingSamplerProofs.
Import ListNotations.
Local Open Scope R_scope.

Lemma run_sweeps_shift {I} (sweep : I -> chains -> res (chains * nat)) f k : forall t st acc,
  run_sweeps sweep f (S t) k st acc = run_sweeps sweep (fun t => f (S t)) t k st acc.
Proof.
  induction k as [|k IH]; intros t st acc; cbn [run_sweeps]; [reflexivity|]. destruct (sweep (f (S t)) st) as [r|e]; cbn [bind]; [apply IH|reflexivity].
Qed.
Lemma run_sweeps_ext {I} (sweep : I -> chains -> res (chains * nat)) f g k : (forall t, f t = g t) -> forall t st acc,
  run_sweeps sweep f t k st acc = run_sweeps sweep g t k st acc.
Proof.
  intros E. induction k as [|k IH]; intros t st acc; cbn [run_sweeps]; [reflexivity|]. rewrite E. destruct (sweep (g t) st) as [r|e]; cbn [bind]; [apply IH|reflexivity].
Qed.
Definition samples_of (r : res (chains * nat)) : list Z := match r with Ok (st, _) => nth 0 (sample st) [] | Err _ => [] end.
Lemma run_sweeps_acc {I} (sweep : I -> chains -> res (chains * nat)) f k : forall t st acc acc',
  samples_of (run_sweeps sweep f t k st acc) = samples_of (run_sweeps sweep f t k st acc').
Proof.
  induction k as [|k IH]; intros t st acc acc'; cbn [run_sweeps]; [reflexivity|]. destruct (sweep (f t) st) as [r|e]; cbn [bind]; [apply IH|reflexivity].
Qed.

Section Trajectory.
  Context {D : Type} (cand : list Z -> D -> list Z) (lp : list Z -> C).
  Local Notation sweep := (symmetric_sweep cand lp).
  Lemma chain_after_0 ds us s : chain_after sweep lp ds us 0 s = s.
  Proof. reflexivity. Qed.
  Lemma chain_after_S d ds u us k s :
    chain_after sweep lp (d :: ds) (u :: us) (S k) s = chain_after sweep lp ds us k (one_chain sweep ([d], [u]) lp s).
  Proof.
    unfold chain_after. fold (samples_of (run_sweeps sweep (fun t => (match nth_error (d :: ds) t with Some d0 => [d0] | None => [] end, [nth t (u :: us) 0])) 0 (S k)
       {| sample := [s]; sample_machine_values := [lp s] |} 0)).
    fold (samples_of (run_sweeps sweep (fun t => (match nth_error ds t with Some d0 => [d0] | None => [] end, [nth t us 0])) 0 k
       {| sample := [one_chain sweep ([d], [u]) lp s]; sample_machine_values := [lp (one_chain sweep ([d], [u]) lp s)] |} 0)).
    assert (E : exists c, sweep ([d], [u]) {| sample := [s]; sample_machine_values := [lp s] |} =
              Ok ({| sample := [one_chain sweep ([d], [u]) lp s]; sample_machine_values := [lp (one_chain sweep ([d], [u]) lp s)] |}, c)).
    { unfold one_chain, symmetric_sweep. cbn [sample sample_machine_values fst snd map2 map combine masked_assign nth].
      destruct (symmetric_accepts (lp (cand s d)) (lp s) u); eexists; reflexivity. }
    destruct E as (c & E). cbn [run_sweeps nth_error nth]. rewrite E. cbn [bind fst snd]. rewrite run_sweeps_shift. apply run_sweeps_acc.
  Qed.

  Context (n : nat) (draws : list D) (Hd : draws <> []) (K : list Z -> list Z -> R).
  Context (HK : kernel n (fun _ => draws) (fun s d u => one_chain sweep ([d], [u]) lp s) K).

  Lemma trajectory_boxes path : Forall (fun t => In t (spin_configs n)) path -> forall s, In s (spin_configs n) ->
    exists box : list D -> list (R * R),
      (forall ds, In ds (choices (repeat draws (length path))) ->
         length (box ds) = length path /\ Forall (fun iv => 0 <= fst iv /\ fst iv <= snd iv /\ snd iv <= 1) (box ds) /\
         forall us, length us = length path -> Forall (fun u => 0 <= u < 1) us ->
           ((forall j, (j < length path)%nat -> chain_after sweep lp ds us (S j) s = nth j path []) <-> Forall2 inside us (box ds))) /\
      Rsum (fun ds => Rprod len (box ds)) (choices (repeat draws (length path))) / INR (length draws) ^ length path = path_weight K s path.
  Proof.
    induction 1 as [|t path Ht F IH]; intros s Hs.
    - exists (fun _ => []). split.
      + intros ds _. split; [reflexivity|]. split; [constructor|]. intros us Hu _. destruct us; [|discriminate]. split; [constructor|]. intros _ j Hj. cbn [length] in Hj. lia.
      + cbn [length repeat choices pow path_weight]. rewrite Rsum_cons, Rsum_nil. unfold Rprod. cbn. field.
    - destruct (IH t Ht) as (box & HB & HV). destruct (HK s t Hs Ht) as (good & HG & EK).
      exists (fun ds => match ds with [] => [] | d :: ds' => good d :: box ds' end). split.
      + intros ds Hds. cbn [length repeat choices] in Hds. apply in_flat_map in Hds. destruct Hds as (d & Id & Hds). apply in_map_iff in Hds.
        destruct Hds as (ds' & <- & Hds'). destruct (HB ds' Hds') as (B1 & B2 & B3). destruct (HG d Id) as (G1 & G2 & G3 & G4).
        split; [cbn [length]; lia|]. split; [constructor; auto|]. intros us Hu Fu. destruct us as [|u us]; [discriminate|].
        cbn [length] in Hu. injection Hu as Hu. inversion Fu as [|? ? Fu1 Fu2]; subst. specialize (G4 u Fu1). specialize (B3 us Hu Fu2). split.
        * intros E. pose proof (E 0%nat ltac:(cbn [length]; lia)) as E0. rewrite chain_after_S, chain_after_0 in E0. cbn [nth] in E0.
          constructor; [now apply G4|]. apply B3. intros j Hj. specialize (E (S j) ltac:(cbn [length]; lia)). rewrite chain_after_S, E0 in E. exact E.
        * intros E. inversion E as [|? ? ? ? I1 I2]; subst. apply G4 in I1. intros j Hj. rewrite chain_after_S, I1. destruct j as [|j]; [reflexivity|].
          cbn [nth]. cbn [length] in Hj. apply (proj2 B3 I2). lia.
      + cbn [length repeat choices pow path_weight]. rewrite Rsum_flat_map.
        rewrite (Rsum_ext _ (fun d => len (good d) * Rsum (fun ds => Rprod len (box ds)) (choices (repeat draws (length path))))).
        * rewrite Rsum_scal_r, <- HV, EK. assert (P : 0 < INR (length draws)) by now apply INR_length_pos. field.
          split; [apply pow_nonzero|]; lra.
        * intros d _. rewrite Rsum_map, <- Rsum_scal. apply Rsum_ext. intros ds _. now rewrite Rprod_cons.
  Qed.
End Trajectory.

Lemma after_paths n K k : forall s t, In s (spin_configs n) -> In t (spin_configs n) ->
  after n K k (starts_in s) t = Rsum (fun p => if list_eq_dec Z.eq_dec (last p s) t then path_weight K s p else 0) (paths n k).
Proof.
  induction k as [|k IH]; intros s t Hs Ht.
  - cbn [after paths repeat choices]. unfold paths. cbn [repeat choices]. rewrite Rsum_cons, Rsum_nil. cbn [last path_weight]. unfold starts_in.
    destruct (list_eq_dec Z.eq_dec t s), (list_eq_dec Z.eq_dec s t); try congruence; ring.
  - change (S k) with (1 + k)%nat. rewrite after_add, after_power by assumption. unfold paths. cbn [repeat Nat.add choices]. rewrite Rsum_flat_map.
    apply Rsum_ext. intros x Hx. rewrite Rsum_map. fold (power n K 1 s x). rewrite power_1 by assumption. unfold power. rewrite IH by assumption. fold (paths n k).
    rewrite <- Rsum_scal. apply Rsum_ext. intros p _. cbn [path_weight]. replace (last (x :: p) s) with (last p x).
    + destruct (list_eq_dec Z.eq_dec (last p x) t); ring.
    + clear. revert x. induction p as [|y p IH]; intros x; [reflexivity|]. change (last (x :: y :: p) s) with (last (y :: p) s). rewrite <- IH. 
      destruct p; [reflexivity|]. cbn [last]. clear. revert l. induction p as [|z p IH]; intros l; [reflexivity|]. apply IH.
Qed.
