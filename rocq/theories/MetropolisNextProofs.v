(** Proofs about the bookkeeping of the Metropolis samplers. *)
From Coq Require Import List ZArith Reals Bool Arith Lia Lra.
From Verif Require Import Base Cplx LatticeSpec IsingProofs AutoregressiveSpec ObservableModel ObservableSpec ObservableProofs
  ExactModel ExactSpec MetropolisModel MetropolisSpec MetropolisProofs.
Import ListNotations.

(** * One sweep *)
Lemma masked_assign_length {A} m : forall (new old : list A), length (masked_assign m new old) = length old.
Proof. induction m as [|b m IH]; intros [|x new] [|y old]; cbn [masked_assign length]; auto. Qed.
Lemma masked_assign_map {A B} (f : A -> B) m : forall new old, masked_assign m (map f new) (map f old) = map f (masked_assign m new old).
Proof. induction m as [|b m IH]; intros [|x new] [|y old]; cbn [masked_assign map]; auto. rewrite IH. destruct b; reflexivity. Qed.
Lemma masked_assign_nth {A} m : forall (new old : list A) i a b v,
  nth_error m i = Some v -> nth_error new i = Some a -> nth_error old i = Some b ->
  nth_error (masked_assign m new old) i = Some (if v then a else b).
Proof.
  induction m as [|x m IH]; intros [|y new] [|z old] [|i] a b v Hm Hn Ho; cbn [nth_error masked_assign] in *; try discriminate.
  - injection Hm as ->. injection Hn as ->. injection Ho as ->. destruct v; reflexivity.
  - eapply IH; eauto.
Qed.
Lemma count_true_le l : count_true l <= length l.
Proof. unfold count_true. induction l as [|[] l IH]; cbn [filter length]; lia. Qed.

(** What every sweep does: the number of chains stays, at most one acceptance per chain, the cached values stay those of the
    samples. *)
Definition sweep_ok {I} (log_psi : list Z -> C) (sweep : I -> chains -> res (chains * nat)) (valid : nat -> I -> Prop) : Prop :=
  forall input st st' k, valid (length (sample st)) input -> sample_machine_values st = map log_psi (sample st) -> sweep input st = Ok (st', k) ->
    length (sample st') = length (sample st) /\ sample_machine_values st' = map log_psi (sample st') /\ k <= length (sample st).

Lemma symmetric_sweep_ok {D} (cand : list Z -> D -> list Z) lp :
  sweep_ok lp (symmetric_sweep cand lp) (fun n input => length (fst input) = n /\ length (snd input) = n).
Proof.
  intros input st st' k [V1 V2] HV E. injection E as <- <-. cbn [sample sample_machine_values].
  split; [apply masked_assign_length|]. split; [rewrite HV; apply masked_assign_map|].
  eapply Nat.le_trans; [apply count_true_le|]. rewrite Base.map2_length. lia.
Qed.
Lemma candidates_loop_length c : forall draws i l, candidates_loop c i draws = Ok l -> length l = length draws.
Proof.
  induction draws as [|d draws IH]; intros i l E; cbn [candidates_loop] in E; [injection E as <-; reflexivity|].
  destruct (hamiltonian_candidate c i d); [|discriminate]. cbn [bind] in E. destruct (candidates_loop c (S i) draws) eqn:E'; [|discriminate].
  cbn [bind] in E. injection E as <-. cbn [length]. f_equal. eapply IH; eauto.
Qed.
Lemma hamiltonian_sweep_ok op lp :
  sweep_ok lp (hamiltonian_sweep op lp) (fun n input => length (fst input) = n /\ length (snd input) = n).
Proof.
  intros input st st' k [V1 V2] HV E. unfold hamiltonian_sweep in E.
  destruct (find_conn op (sample st)) as [c|]; [|discriminate]. cbn [bind] in E.
  destruct (candidates_loop c 0 (fst input)) as [cs|] eqn:EC; [|discriminate]. cbn [bind] in E.
  destruct (find_conn op cs) as [c'|]; [|discriminate]. cbn [bind] in E. injection E as <- <-. cbn [sample sample_machine_values].
  split; [apply masked_assign_length|]. split; [rewrite HV; apply masked_assign_map|].
  apply candidates_loop_length in EC.
  eapply Nat.le_trans; [apply count_true_le|].
  rewrite Base.map2_length. lia.
Qed.

(** * Histories *)
Section History.
  Context {I : Type} (lp : list Z -> C) (sweep : I -> chains -> res (chains * nat)) (valid : nat -> I -> Prop).
  Context (OK : sweep_ok lp sweep valid) (draws : nat -> I) (nc : nat) (Hvalid : forall t, valid nc (draws t)).

  Definition cached (st : chains) : Prop := sample_machine_values st = map lp (sample st).
  Lemma run_sweeps_ok k : forall t st acc st' acc', length (sample st) = nc -> cached st ->
    run_sweeps sweep draws t k st acc = Ok (st', acc') ->
    length (sample st') = nc /\ cached st' /\ acc <= acc' <= acc + k * nc.
  Proof.
    induction k as [|k IH]; intros t st acc st' acc' L HC E; cbn [run_sweeps] in E.
    - injection E as <- <-. split; [exact L|]. split; [exact HC|lia].
    - destruct (sweep (draws t) st) as [[st1 k1]|] eqn:ES; [|discriminate]. cbn [bind fst snd] in E.
      destruct (OK (draws t) st st1 k1) as (L1 & C1 & B1); [rewrite L; apply Hvalid|exact HC|exact ES|].
      apply IH in E; [|lia|exact C1]. destruct E as (L2 & C2 & B2). split; [exact L2|]. split; [exact C2|]. lia.
  Qed.
  Lemma run_sweeps_add k1 : forall k2 t st acc, run_sweeps sweep draws t (k1 + k2) st acc =
    (do r <- run_sweeps sweep draws t k1 st acc; run_sweeps sweep draws (t + k1) k2 (fst r) (snd r)).
  Proof.
    induction k1 as [|k1 IH]; intros k2 t st acc; cbn [Nat.add run_sweeps bind fst snd].
    - now rewrite Nat.add_0_r.
    - destruct (sweep (draws t) st) as [r|]; [|reflexivity]. cbn [bind]. rewrite IH. now replace (S t + k1) with (t + S k1) by lia.
  Qed.
  Lemma run_sweeps_acc k : forall t st a b, run_sweeps sweep draws t k st (a + b) =
    (do r <- run_sweeps sweep draws t k st b; Ok (fst r, a + snd r)).
  Proof.
    induction k as [|k IH]; intros t st a b; cbn [run_sweeps bind fst snd]; [reflexivity|].
    destruct (sweep (draws t) st) as [r|]; [|reflexivity]. cbn [bind]. rewrite <- Nat.add_assoc. apply IH.
  Qed.
  Lemma warn_up_sweeps unused k : forall t st, warn_up sweep draws unused k t st =
    (do r <- run_sweeps sweep draws t (k * unused) st 0; Ok (fst r, t + k * unused)).
  Proof.
    induction k as [|k IH]; intros t st; cbn [warn_up Nat.mul run_sweeps bind fst snd]; [now rewrite Nat.add_0_r|].
    rewrite run_sweeps_add. destruct (run_sweeps sweep draws t unused st 0) as [[st1 a]|]; [|reflexivity]. cbn [bind fst snd]. rewrite IH.
    replace (run_sweeps sweep draws (t + unused) (k * unused) st1 a) with (run_sweeps sweep draws (t + unused) (k * unused) st1 (a + 0)) by (f_equal; lia).
    rewrite run_sweeps_acc. destruct (run_sweeps sweep draws (t + unused) (k * unused) st1 0) as [[st2 b]|]; [|reflexivity].
    cbn [bind fst snd]. do 2 f_equal. lia.
  Qed.
End History.

(** * Storing samples *)
Lemma store_loop_nth per i (samples : list (list Z)) : forall l (b : list (list Z)) q,
  (forall c, In c l -> c * per + i < length b) -> NoDup l -> i < per ->
  nth q (fold_left (fun b c => upd b (c * per + i) (nth c samples [])) l b) [] =
  match find (fun c => c * per + i =? q) l with Some c => nth c samples [] | None => nth q b [] end.
Proof.
  induction l as [|c l IH]; intros b q Hl N Hi; cbn [fold_left find]; [reflexivity|].
  rewrite IH; [|intros c' Hc'; rewrite upd_length; apply Hl; now right|now inversion N|exact Hi].
  destruct (Nat.eqb_spec (c * per + i) q) as [<-|Nq].
  - destruct (find _ l) as [c'|] eqn:F.
    + apply find_some in F. destruct F as [F1 F2]. apply Nat.eqb_eq in F2. assert (c' = c) by nia. subst. inversion N; contradiction.
    + apply nth_upd_same. apply Hl. now left.
  - destruct (find _ l) as [c'|]; [reflexivity|]. now apply nth_upd_other.
Qed.
Lemma store_length per i samples b : length (store_samples per i samples b) = length b.
Proof.
  unfold store_samples. generalize (range (length samples)). intros l. revert b. induction l as [|c l IH]; intros b; cbn [fold_left]; [reflexivity|].
  rewrite IH. apply upd_length.
Qed.
Lemma store_same per i samples b c : i < per -> length b = length samples * per -> c < length samples ->
  nth (c * per + i) (store_samples per i samples b) [] = nth c samples [].
Proof.
  intros Hi Hb Hc. unfold store_samples. rewrite store_loop_nth; [|intros c' Hc'; apply in_seq in Hc'; nia|apply seq_NoDup|exact Hi].
  destruct (find _ _) as [c'|] eqn:F.
  - apply find_some in F. destruct F as [_ F]. apply Nat.eqb_eq in F. assert (c' = c) by nia. now subst.
  - exfalso. eapply find_none in F; [|apply in_seq; split; [lia|exact Hc]]. rewrite Nat.eqb_refl in F. discriminate.
Qed.
Lemma store_other per i j samples b c : i < per -> j < per -> i <> j -> length b = length samples * per ->
  nth (c * per + j) (store_samples per i samples b) [] = nth (c * per + j) b [].
Proof.
  intros Hi Hj N Hb. unfold store_samples. rewrite store_loop_nth; [|intros c' Hc'; apply in_seq in Hc'; nia|apply seq_NoDup|exact Hi].
  destruct (find _ _) as [c'|] eqn:F; [|reflexivity]. exfalso.
  apply find_some in F. destruct F as [_ F]. apply Nat.eqb_eq in F. apply N.
  assert ((c' * per + i) mod per = (c * per + j) mod per) by now rewrite F.
  rewrite !(Nat.add_comm (_ * per)), !Nat.mod_add, !Nat.mod_small in H by lia. exact H.
Qed.

Section Loop.
  Context {I : Type} (lp : list Z -> C) (sweep : I -> chains -> res (chains * nat)) (valid : nat -> I -> Prop).
  Context (OK : sweep_ok lp sweep valid) (draws : nat -> I) (nc : nat) (Hvalid : forall t, valid nc (draws t)).

  Lemma sample_loop_ok unused per steps : forall i t st acc batch st' t' acc' batch',
    length (sample st) = nc -> cached lp st -> length batch = nc * per -> i + steps <= per ->
    sample_loop sweep draws unused per steps i t st acc batch = Ok (st', t', acc', batch') ->
    length batch' = nc * per /\ t' = t + steps * (unused + 1) /\ run_sweeps sweep draws t (steps * (unused + 1)) st acc = Ok (st', acc') /\
    (forall c j, c < nc -> j < i -> nth (c * per + j) batch' [] = nth (c * per + j) batch []) /\
    (forall j, j < steps -> exists stj a, run_sweeps sweep draws t ((j + 1) * (unused + 1)) st acc = Ok (stj, a) /\
       forall c, c < nc -> nth (c * per + (i + j)) batch' [] = nth c (sample stj) []).
  Proof.
    induction steps as [|steps IH]; intros i t st acc batch st' t' acc' batch' L HC LB Hi E; cbn [sample_loop] in E.
    - injection E as <- <- <- <-. cbn [Nat.mul run_sweeps]. split; [exact LB|]. split; [lia|]. split; [reflexivity|]. split; [auto|]. intros; lia.
    - destruct (run_sweeps sweep draws t (unused + 1) st acc) as [[st1 a1]|] eqn:ER; [|discriminate]. cbn [bind fst snd] in E.
      destruct (run_sweeps_ok lp sweep valid OK draws nc Hvalid _ _ _ _ _ _ L HC ER) as (L1 & C1 & _).
      apply IH in E; [|exact L1|exact C1|now rewrite store_length|lia]. destruct E as (B1 & T1 & R1 & S1 & S2).
      split; [exact B1|]. split; [lia|]. split.
      { replace (S steps * (unused + 1)) with ((unused + 1) + steps * (unused + 1)) by lia. rewrite run_sweeps_add, ER. exact R1. }
      split.
      { intros c j Hc Hj. rewrite S1 by lia. apply store_other; try lia. }
      intros [|j] Hj.
      + exists st1, a1. split; [replace ((0 + 1) * (unused + 1)) with (unused + 1) by lia; exact ER|]. intros c Hc. rewrite Nat.add_0_r, S1 by lia.
        apply store_same; lia.
      + destruct (S2 j) as (stj & a & Rj & Sj); [lia|]. exists stj, a. split.
        * replace ((S j + 1) * (unused + 1)) with ((unused + 1) + (j + 1) * (unused + 1)) by lia. rewrite run_sweeps_add, ER. exact Rj.
        * intros c Hc. replace (i + S j) with (S i + j) by lia. now apply Sj.
  Qed.

  Lemma mh_next_ok batch unused discard t st r : length (sample st) = nc ->
    mh_next lp sweep draws batch nc unused discard t st = Ok r ->
    let per := batch / nc in
    let warm := if 0 <? discard then per / discard * unused else 0 in
    let start := {| sample := sample st; sample_machine_values := map lp (sample st) |} in
    0 < nc /\ batch = nc * per /\ 0 < batch /\ length (next_batch r) = batch /\
    next_draw r = t + warm + per * (unused + 1) /\
    sample_machine_values (next_chains r) = map lp (sample (next_chains r)) /\
    (exists st0 a0 accepted, run_sweeps sweep draws t warm start 0 = Ok (st0, a0) /\
       run_sweeps sweep draws (t + warm) (per * (unused + 1)) st0 0 = Ok (next_chains r, accepted) /\
       acceptance_ratio r = (INR accepted / INR (batch * (unused + 1)))%R /\
       (forall j, j < per -> exists stj aj, run_sweeps sweep draws (t + warm) ((j + 1) * (unused + 1)) st0 0 = Ok (stj, aj) /\
          forall c, c < nc -> nth (c * per + j) (next_batch r) [] = nth c (sample stj) [])) /\
    (0 <= acceptance_ratio r <= 1)%R.
  Proof.
    intros L E per warm start. unfold mh_next in E. unfold check_chains in E.
    destruct (Nat.eqb_spec nc 0) as [|Nz]; [discriminate|]. destruct (Nat.eqb_spec (batch mod nc) 0) as [Hm|]; [|discriminate].
    cbn [bind] in E. fold per in E. assert (EB : batch = nc * per) by (unfold per; pose proof (Nat.div_mod batch nc Nz); lia).
    unfold machine_updated in E. fold start in E.
    assert (EW : (if 0 <? discard then warn_up sweep draws unused (per / discard) t start else Ok (start, t)) =
                 (do r <- run_sweeps sweep draws t warm start 0; Ok (fst r, t + warm))).
    { unfold warm. destruct (0 <? discard); [apply warn_up_sweeps|]. cbn [run_sweeps bind fst]. now rewrite Nat.add_0_r. }
    rewrite EW in E. destruct (run_sweeps sweep draws t warm start 0) as [[st0 a0]|] eqn:E0; [|discriminate]. cbn [bind fst snd] in E.
    destruct (run_sweeps_ok lp sweep valid OK draws nc Hvalid _ _ start _ _ _ L eq_refl E0) as (L0 & C0' & _).
    destruct (sample_loop sweep draws unused per per 0 (t + warm) st0 0 (repeat [] batch)) as [[[[st1 t1] acc] b1]|] eqn:E1; [|discriminate].
    cbn [bind] in E. destruct (Nat.eqb_spec batch 0) as [|Nb]; [discriminate|]. injection E as <-. cbn [next_chains next_draw next_batch acceptance_ratio].
    pose proof (sample_loop_ok unused per per 0 (t + warm) st0 0 _ _ _ _ _ L0 C0' ltac:(rewrite repeat_length; exact EB) ltac:(lia) E1) as (B1 & T1 & R1 & _ & S2).
    destruct (run_sweeps_ok lp sweep valid OK draws nc Hvalid _ _ _ _ _ _ L0 C0' R1) as (_ & C1 & HA).
    split; [lia|]. split; [exact EB|]. split; [lia|]. split; [lia|]. split; [lia|]. split; [exact C1|]. split.
    - exists st0, a0, acc. split; [reflexivity|]. split; [exact R1|]. split; [reflexivity|]. exact S2.
    - assert (Hp : (0 < INR (batch * (unused + 1)))%R) by (apply lt_0_INR; nia). split.
      + apply Rmult_le_pos; [apply pos_INR|left; now apply Rinv_0_lt_compat].
      + apply (Rmult_le_reg_r (INR (batch * (unused + 1)))); [exact Hp|]. unfold Rdiv. rewrite Rmult_assoc, Rinv_l, Rmult_1_r, Rmult_1_l by lra.
        apply le_INR. nia.
  Qed.
End Loop.

(** * Chains are independent *)
Lemma symmetric_sweep_chain {D} (cand : list Z -> D -> list Z) lp ds us st st' k i s d u :
  sample_machine_values st = map lp (sample st) ->
  symmetric_sweep cand lp (ds, us) st = Ok (st', k) ->
  nth_error (sample st) i = Some s -> nth_error ds i = Some d -> nth_error us i = Some u ->
  nth_error (sample st') i = Some (one_chain (symmetric_sweep cand lp) ([d], [u]) lp s).
Proof.
  intros HV E Hs Hd Hu. rewrite sym_step. unfold symmetric_sweep in E. injection E as <- <-. cbn [sample fst snd].
  assert (Hc : nth_error (map2 cand (sample st) ds) i = Some (cand s d)) by (rewrite nth_error_map2, Hs, Hd; reflexivity).
  rewrite HV.
  assert (Hcomb : forall (l1 l2 : list C) a b, nth_error l1 i = Some a -> nth_error l2 i = Some b -> nth_error (combine l1 l2) i = Some (a, b)).
  { clear. induction i as [|i IH]; intros [|x l1] [|y l2] a b H1 H2; cbn [nth_error combine] in *; try discriminate; [congruence|]. now apply IH. }
  erewrite (masked_assign_nth _ _ _ i (cand s d) s); [| |exact Hc|exact Hs].
  2:{ rewrite nth_error_map2. rewrite (Hcomb _ _ (lp (cand s d)) (lp s)); [|now apply map_nth_error|now apply map_nth_error]. rewrite Hu. reflexivity. }
  cbn [fst snd]. unfold symmetric_accepts, sym_accept. destruct (Rlt_dec u _); reflexivity.
Qed.
