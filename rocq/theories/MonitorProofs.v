(** Lemmas about the monitors of Keras. *)
From Coq Require Import List ZArith Reals Bool Arith Lia Lra String.
From Verif Require Import Base Cplx IsingModel TrainingModel CheckpointModel CallbackModel CallbackSpec CallbackProofs MonitorModel MonitorSpec.
Import ListNotations.

(** The callbacks of the example in any state. *)
Definition mon (ib : bool) (e0 : R) (m1 : string) (b1 : option R) (m2 : string) (d : R) (p : nat) (b2 : option R) (wait : nat) : list keras_callback :=
  map Statistics (default_callbacks false (Some e0) ib 1) ++ [McmcStats true; ModelCheckpoint m1 b1; Other; EarlyStopping m2 d p b2 wait; Other].

Lemma lookup_set_same key v l : lookup key (set_log key v l) = Some v.
Proof.
  induction l as [|[k x] t IH]; cbn [set_log lookup]; [now rewrite String.eqb_refl|].
  destruct (String.eqb_spec k key) as [->|N]; cbn [lookup]; [now rewrite String.eqb_refl|]. destruct (String.eqb_spec k key); [contradiction|exact IH].
Qed.
Lemma lookup_set_other key m v l : key <> m -> lookup key (set_log m v l) = lookup key l.
Proof.
  intros N. induction l as [|[k x] t IH]; cbn [set_log lookup].
  - destruct (String.eqb_spec m key); [congruence|reflexivity].
  - destruct (String.eqb_spec k m) as [->|M]; cbn [lookup]; [destruct (String.eqb_spec m key); [congruence|reflexivity]|]. now rewrite IH.
Qed.

Lemma batch_mon ib e0 m1 b1 m2 d p b2 wt b r x k : fetched (train (seen r)) = S k -> diagnostics r <> None ->
  exists l, call_in_order (batch_end b) (mon ib e0 m1 b1 m2 d p b2 wt) r [("loss"%string, x)] =
    Ok (mon ib e0 m1 b1 m2 d p b2 wt, with_world (clocked (negb ib) (seen r)) r, l).
Proof.
  intros F D. destruct r as [[[[a1 a2 a3 a4 a5 a6] t1 t2 t3 t4 t5 t6] va ck rd st se] [f|] u s]; [|now destruct D]. cbn in F. subst a6.
  destruct (f (S k)) as [[[q1 q2] q3] q4] eqn:Q. destruct ib; cbn -[set_log]; rewrite Q; eexists; reflexivity.
Qed.

Lemma batch_mon_none ib e0 m1 b1 m2 d p b2 wt b r x k : fetched (train (seen r)) = S k -> diagnostics r = None ->
  call_in_order (batch_end b) (mon ib e0 m1 b1 m2 d p b2 wt) r [("loss"%string, x)] = Err AttributeError.
Proof.
  intros F D. destruct r as [[[[a1 a2 a3 a4 a5 a6] t1 t2 t3 t4 t5 t6] va ck rd st se] dg u s]. cbn in F, D. subst a6 dg. destruct ib; reflexivity.
Qed.

Lemma train_steps_mon loss ib e0 m1 b1 m2 d p b2 wt steps : forall b r, whole (train (seen r)) -> diagnostics r <> None ->
  exists r', train_steps loss (mon ib e0 m1 b1 m2 d p b2 wt) steps b r = Ok (mon ib e0 m1 b1 m2 d p b2 wt, r') /\
    whole (train (seen r')) /\ fetched (train (seen r')) = fetched (train (seen r)) + steps /\ same_values (train (seen r)) (train (seen r')) /\
    diagnostics r' = diagnostics r /\ updates r' = updates r + steps /\ saved r' = saved r /\ stop_training (seen r') = stop_training (seen r).
Proof.
  induction steps as [|n IH]; intros b r W D.
  - exists r. cbn [train_steps]. rewrite !Nat.add_0_r. repeat split; auto; apply W.
  - cbn [train_steps]. destruct (whole_next _ W) as [W1 F1].
    set (r0 := {| seen := advance_train (seen r); diagnostics := diagnostics r; updates := S (updates r); saved := saved r |}).
    destruct (batch_mon ib e0 m1 b1 m2 d p b2 wt b r0 (loss (updates r0)) (fetched (train (seen r)))) as [l E]; [exact F1|exact D|].
    rewrite E. cbn [bind fst snd].
    assert (T : train (seen (with_world (clocked (negb ib) (seen r0)) r0)) = vmc_next (train (seen r))) by (destruct ib; reflexivity).
    destruct (IH (S b) (with_world (clocked (negb ib) (seen r0)) r0)) as (r' & H1 & H2 & H3 & H4 & H5 & H6 & H7 & H8); [rewrite T; exact W1|exact D|].
    exists r'. rewrite T in H3, H4. split; [exact H1|]. split; [exact H2|]. split; [lia|]. split; [exact (same_trans _ _ _ (same_next _) H4)|].
    split; [exact H5|]. split; [rewrite H6; cbn; lia|]. split; [exact H7|]. rewrite H8. destruct ib; reflexivity.
Qed.

(** With logging per batch nothing is in the logs of the epoch. *)
Lemma epoch_mon_batch e0 m1 b1 m2 d p b2 wt e r x : m1 <> "loss"%string -> m2 <> "loss"%string ->
  call_in_order (epoch_end e) (mon true e0 m1 b1 m2 d p b2 wt) r [("loss"%string, x)] = Ok (mon true e0 m1 b1 m2 d p b2 wt, r, [("loss"%string, x)]).
Proof.
  intros N1 N2.
  assert (L : forall m, m <> "loss"%string -> lookup m [("loss"%string, x)] = None).
  { intros m N. cbn [lookup]. destruct (String.eqb_spec "loss" m); [congruence|reflexivity]. }
  destruct r as [w dg u s]. cbv [mon default_callbacks map app]. cbn [call_in_order epoch_end on_epoch_end is_validation_epoch bind fst snd with_world seen diagnostics updates saved].
  rewrite (L m1 N1). cbn [bind]. rewrite (L m2 N2). reflexivity.
Qed.
Lemma run_mon_batch loss e0 m1 b1 m2 d p b2 wt steps : m1 <> "loss"%string -> m2 <> "loss"%string -> forall n e r,
  stop_training (seen r) = false -> whole (train (seen r)) -> diagnostics r <> None ->
  exists r' ls, run_epochs loss (mon true e0 m1 b1 m2 d p b2 wt) steps n e r = Ok (mon true e0 m1 b1 m2 d p b2 wt, r', ls) /\
    List.length ls = n /\ saved r' = saved r /\ stop_training (seen r') = false /\ updates r' = updates r + steps * n /\
    Forall (fun l => exists x, l = [("loss"%string, x)]) ls.
Proof.
  intros N1 N2. induction n as [|n IH]; intros e r St W D.
  - exists r, []. cbn [run_epochs]. rewrite Nat.mul_0_r, Nat.add_0_r. repeat split; auto.
  - cbn [run_epochs]. rewrite St. destruct (train_steps_mon loss true e0 m1 b1 m2 d p b2 wt steps 0 r W D) as (r1 & E & H1 & H2 & H3 & H4 & H5 & H6 & H7).
    rewrite E. cbn [bind fst snd]. rewrite epoch_mon_batch by assumption. cbn [bind fst snd].
    destruct (IH (S e) r1) as (r' & ls & G1 & G2 & G3 & G4 & G5 & G6); [congruence|exact H1|congruence|].
    rewrite G1. cbn [bind fst snd]. eexists r', _. split; [reflexivity|]. cbn [List.length]. split; [lia|]. split; [congruence|]. split; [exact G4|]. split; [lia|].
    constructor; [eexists; reflexivity|exact G6].
Qed.

(** * Logging per epoch *)

Definition en : string := "energy/energy".
Definition er : string := "energy/relative_error".
Definition lt_best (x : R) (b : option R) : bool := match b with None => true | Some y => if Rlt_dec x y then true else false end.
Definition save_now (e : nat) (x : R) (b1 : option R) (r : run) : run :=
  if lt_best x b1 then {| seen := seen r; diagnostics := diagnostics r; updates := updates r; saved := saved r ++ [(e, updates r)] |} else r.

Lemma epoch_mon e0 b1 d p b2 wt e r x k : fetched (train (seen r)) = S k ->
  let E := Re (current_energy (train (seen r)) (S k)) in
  let err := ((e0 - E) / e0)%R in
  let r1 := save_now e E b1 (with_world (snd (read_clock (seen r))) r) in
  let better2 := lt_best (err + d)%R b2 in
  exists l, lookup en l = Some E /\ lookup er l = Some err /\
  call_in_order (epoch_end e) (mon false e0 en b1 er d p b2 wt) r [("loss"%string, x)] =
    Ok (mon false e0 en (if lt_best E b1 then Some E else b1) er d p (if better2 then Some err else b2) (if better2 then 0 else S wt),
        (if better2 then r1 else if p <=? S wt then with_world (set_stop true (seen r1)) r1 else r1), l).
Proof.
  intros F E err r1 better2. subst E err r1 better2.
  destruct r as [[[[a1 a2 a3 a4 a5 a6] t1 t2 t3 t4 t5 t6] va ck rd st se] dg u s]. cbn in F. subst a6.
  cbn [seen train current_energy]. unfold save_now.
  destruct (lt_best (Re (t1 (S k))) b1) eqn:B1; destruct (lt_best ((e0 - Re (t1 (S k))) / e0 + d)%R b2) eqn:B2; destruct (p <=? S wt) eqn:P;
    eexists; (split; [|split]).
  all: cycle 2.
  all: try (cbv [mon default_callbacks map app]; cbn -[Nat.leb better en er lookup set_log];
    match goal with |- context [lookup en ?l] => change (lookup en l) with (Some (Re (t1 (S k)))) end; cbv iota beta;
    change (better en (Re (t1 (S k))) b1) with (lt_best (Re (t1 (S k))) b1); rewrite B1; cbn -[Nat.leb better en er lookup set_log];
    match goal with |- context [lookup er ?l] => change (lookup er l) with (Some ((e0 - Re (t1 (S k))) / e0)%R) end; cbv iota beta;
    change (higher_is_better er) with false; cbv iota;
    change (better er ((e0 - Re (t1 (S k))) / e0 + d)%R b2) with (lt_best ((e0 - Re (t1 (S k))) / e0 + d)%R b2); rewrite B2, ?P; reflexivity).
  all: reflexivity.
Qed.

Lemma lt_best_some x y : lt_best x (Some y) = true <-> (x < y)%R.
Proof. cbn. destruct (Rlt_dec x y); split; (easy || lra). Qed.

(** The first epoch with the lowest energy among the first [m]. *)
Definition first_lowest (E : nat -> R) (m i : nat) : Prop := i < m /\ (forall j, j < m -> (E i <= E j)%R) /\ (forall j, j < i -> (E i < E j)%R).
Lemma first_lowest_1 E : first_lowest E 1 0.
Proof. split; [lia|]. split; [|lia]. intros j Hj. replace j with 0 by lia. lra. Qed.
Lemma first_lowest_new E m i : first_lowest E m i -> (E m < E i)%R -> first_lowest E (S m) m.
Proof.
  intros (H1 & H2 & H3) L. split; [lia|]. split; intros j Hj.
  - destruct (Nat.eq_dec j m) as [->|N]; [lra|]. specialize (H2 j ltac:(lia)). lra.
  - specialize (H2 j Hj). lra.
Qed.
Lemma first_lowest_old E m i : first_lowest E m i -> ~ (E m < E i)%R -> first_lowest E (S m) i.
Proof.
  intros (H1 & H2 & H3) L. split; [lia|]. split; [|exact H3]. intros j Hj. destruct (Nat.eq_dec j m) as [->|N]; [lra|]. apply H2. lia.
Qed.

Section Main.
Context (loss : nat -> R) (v0 : vmc) (e0 d : R) (p steps : nat) (P : p <= 1) (S0 : 0 < steps).
Let E (j : nat) : R := epoch_energy v0 steps j.
Let err (j : nat) : R := epoch_error e0 v0 steps j.

Definition saved_ok (m : nat) (b1 : option R) (s : list (nat * nat)) : Prop :=
  (m = 0 /\ b1 = None) \/ exists i, first_lowest E m i /\ b1 = Some (E i) /\ last s (0, 0) = (i, steps * S i).
Definition improving (m : nat) : Prop := forall j, S j < m -> (err (S j) + d < err j)%R.

Lemma run_mon : forall n e r b1 b2 wt, stop_training (seen r) = false -> whole (train (seen r)) -> diagnostics r <> None ->
  fetched (train (seen r)) = steps * e -> updates r = steps * e -> same_values v0 (train (seen r)) ->
  saved_ok e b1 (saved r) -> b2 = match e with O => None | S j => Some (err j) end -> improving e ->
  exists cs' r' ls, run_epochs loss (mon false e0 en b1 er d p b2 wt) steps n e r = Ok (cs', r', ls) /\
    let m := e + List.length ls in
    m <= e + n /\ updates r' = steps * m /\ improving (m - 1) /\
    (if stop_training (seen r') then 2 <= m /\ ~ (err (m - 1) + d < err (m - 2))%R else m = e + n /\ improving m) /\
    (exists b, saved_ok m b (saved r')) /\
    (forall j, j < List.length ls -> lookup en (nth j ls []) = Some (E (e + j)) /\ lookup er (nth j ls []) = Some (err (e + j))).
Proof.
  induction n as [|n IH]; intros e r b1 b2 wt St W D F U SV Sv B2 Im.
  - eexists _, r, []. split; [reflexivity|]. cbn [List.length]. cbv zeta. rewrite !Nat.add_0_r. rewrite St. split; [lia|]. split; [exact U|].
    split; [intros j Hj; apply Im; lia|]. split; [split; [reflexivity|exact Im]|]. split; [now exists b1|]. intros j Hj. lia.
  - cbn [run_epochs]. rewrite St. destruct (train_steps_mon loss false e0 en b1 er d p b2 wt steps 0 r W D) as (r1 & T1 & H1 & H2 & H3 & H4 & H5 & H6 & H7).
    rewrite T1. cbn [bind fst snd]. rewrite F in H2. rewrite U in H5.
    assert (K : fetched (train (seen r1)) = S (steps * S e - 1)) by nia.
    destruct (epoch_mon e0 b1 d p b2 wt e r1 (loss (updates r1)) (steps * S e - 1) K) as (l & L1 & L2 & C).
    assert (EE : Re (current_energy (train (seen r1)) (S (steps * S e - 1))) = E e).
    { replace (S (steps * S e - 1)) with (steps * S e) by nia. unfold E, epoch_energy. destruct H3 as [-> _]. destruct SV as [-> _]. reflexivity. }
    cbv zeta in C. rewrite EE in L1, L2, C. change ((e0 - E e) / e0)%R with (err e) in L2, C. rewrite C. cbn [bind fst snd]. clear C.
    set (b1' := if lt_best (E e) b1 then Some (E e) else b1).
    set (r2 := save_now e (E e) b1 (with_world (snd (read_clock (seen r1))) r1)).
    assert (U2 : updates r2 = steps * S e). { unfold r2, save_now. destruct (lt_best _ _); cbn; nia. }
    assert (TR : train (seen r2) = train (seen r1)). { unfold r2, save_now. destruct (lt_best _ _); reflexivity. }
    assert (ST : stop_training (seen r2) = false). { unfold r2, save_now. destruct (lt_best _ _); cbn; congruence. }
    assert (DG : diagnostics r2 <> None). { unfold r2, save_now. destruct (lt_best _ _); cbn; congruence. }
    assert (Sv2 : saved_ok (S e) b1' (saved r2)).
    { right. unfold b1', r2, save_now. destruct Sv as [[-> ->]|(i & FL & -> & La)].
      - cbn [lt_best]. exists 0. split; [apply first_lowest_1|]. split; [reflexivity|]. cbn [saved with_world updates]. rewrite last_last. f_equal. nia.
      - destruct (lt_best (E e) (Some (E i))) eqn:B.
        + apply lt_best_some in B. exists e. split; [now apply (first_lowest_new E e i)|]. split; [reflexivity|]. cbn [saved with_world updates]. rewrite last_last. f_equal. nia.
        + exists i. split; [apply first_lowest_old; [exact FL|]; intros B'; apply lt_best_some in B'; congruence|]. split; [reflexivity|]. cbn [saved with_world]. rewrite H6. exact La. }
    assert (SV2 : same_values v0 (train (seen r1))) by exact (same_trans _ _ _ SV H3).
    destruct (lt_best (err e + d) b2) eqn:B.
    + assert (Im2 : improving (S e)).
      { intros j Hj. destruct (Nat.eq_dec (S j) e) as [<-|Ne]; [|apply Im; lia]. subst b2. now apply lt_best_some in B. }
      destruct (IH (S e) r2 b1' (Some (err e)) 0) as (cs' & r' & ls & G & M); auto; try (rewrite TR; auto); [lia|]. 
      rewrite G. cbn [bind fst snd]. eexists cs', r', (l :: ls). split; [reflexivity|]. cbn [List.length]. cbv zeta in *. rewrite <- !Nat.add_succ_comm.
      destruct M as (M1 & M2 & M3 & M4 & M5 & M6). repeat (split; [assumption|]). intros [|j] Hj; cbn [nth]; [rewrite Nat.add_0_r; auto|].
      rewrite <- Nat.add_succ_comm. apply M6. lia.
    + rewrite (proj2 (Nat.leb_le p (S wt))) by lia.
      assert (R0 : forall cs, run_epochs loss cs steps n (S e) (with_world (set_stop true (seen r2)) r2) = Ok (cs, with_world (set_stop true (seen r2)) r2, [])).
      { intros cs. destruct n; reflexivity. }
      rewrite R0. cbn [bind fst snd]. eexists _, _, [l]. split; [reflexivity|]. cbn [List.length]. cbv zeta. rewrite !Nat.add_1_r.
      cbn [with_world seen set_stop stop_training updates saved]. split; [lia|]. split; [exact U2|]. replace (S e - 1) with e by lia. split; [exact Im|].
      split; [|split; [now exists b1'|]].
      * destruct e as [|e']; [subst b2; discriminate|]. split; [lia|]. replace (S (S e') - 2) with e' by lia. subst b2. intros B'. apply lt_best_some in B'. congruence.
      * intros j Hj. replace j with 0 by lia. cbn [nth]. rewrite Nat.add_0_r. auto.
Qed.
End Main.
