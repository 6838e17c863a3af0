(** Proofs about stages whose windows of gradients need not start with a batch. *)
From Coq Require Import List Reals Lra Lia Arith Bool.
From Verif Require Import Base Cplx Vec TrainingModel TrainingSpec TrainingProofs StageTrainingModel StageTrainingSpec.
Import ListNotations.
Local Open Scope R_scope.

Section Stage.
  Context {X S : Type} (O : optimizer S) (d B m f r : nat) (sum : bool) (nb : nat -> list R -> list X) (sg : list R -> X -> list R) (s0 : S) (acc0 : list R).
  Context (Hm : (0 < m)%nat) (Hf : (0 < f)%nat) (Hr : (r < f)%nat) (HB : B = (f * m)%nat).
  Context (HnB : forall k w, length (nb k w) = B) (HO : forall s, length (weights O s) = d) (Hsg : forall w x, length (sg w x) = d) (Hacc : length acc0 = d).
  Let c := step_scale sum f.
  Let U k := shifted_updates O d c f r m nb sg acc0 s0 k.
  Let W k := fst (U k).
  Let L k := snd (U k).
  Let g a w q := vscale c (mean_gradient d sg w (mini_batch m q (nb a (weights O (W a))))).

  Lemma g_sized a w q : length (g a w q) = d.
  Proof.
    unfold g, mean_gradient. rewrite !vscale_length. apply vsum_length. intros v Hv. apply in_map_iff in Hv. destruct Hv as (x & <- & _). apply Hsg.
  Qed.
  Lemma map_g_sized a w l v : In v (map (g a w) l) -> length v = d.
  Proof. intros H. apply in_map_iff in H. destruct H as (q & <- & _). apply g_sized. Qed.
  Lemma sum_g_sized a w l : length (vsum d (map (g a w) l)) = d.
  Proof. apply vsum_length. apply map_g_sized. Qed.

  Lemma mini_batch_length a q w : (q < f)%nat -> length (mini_batch m q (nb a w)) = m.
  Proof. intros H. unfold mini_batch. rewrite firstn_length, skipn_length, HnB, HB. nia. Qed.

  Lemma U_step a : W (Datatypes.S a) = apply_gradients O (W a) (vadd (L a) (vsum d (map (g a (weights O (W a))) (seq 0 (f - r))))) /\
    L (Datatypes.S a) = vsum d (map (g a (weights O (W (Datatypes.S a)))) (seq (f - r) r)).
  Proof.
    assert (E : forall w l, (forall q, In q l -> (q < f)%nat) ->
      map (fun q => vscale c (vscale (/ INR m) (vsum d (map (sg w) (mini_batch m q (nb a (weights O (W a)))))))) l = map (g a w) l).
    { intros w l Hl. apply map_ext_in. intros q Hq. unfold g, mean_gradient. now rewrite mini_batch_length by auto. }
    assert (EW : W (Datatypes.S a) = apply_gradients O (W a) (vadd (L a) (vsum d (map (g a (weights O (W a))) (seq 0 (f - r)))))).
    { rewrite <- E by (intros q Hq; apply in_seq in Hq; lia). unfold W, L, U. cbn [shifted_updates].
      destruct (shifted_updates O d c f r m nb sg acc0 s0 a) as [t rest] eqn:EU. reflexivity. }
    split; [exact EW|]. rewrite <- E by (intros q Hq; apply in_seq in Hq; lia). rewrite EW, <- E by (intros q Hq; apply in_seq in Hq; lia).
    unfold W, L, U. cbn [shifted_updates].
    destruct (shifted_updates O d c f r m nb sg acc0 s0 a) as [t rest] eqn:EU. reflexivity.
  Qed.

  Lemma L_sized a : length (L a) = d.
  Proof. destruct a as [|a]; [exact Hacc|]. rewrite (proj2 (U_step a)). apply sum_g_sized. Qed.

  Definition at_step (it0 a i : nat) (G : generator X) (A : accumulating S) : Prop :=
    gen_batch_size G = B /\ gen_mini G = m /\
    (if (i =? 0)%nat then (B < gen_idx G + m)%nat /\ gen_fetched G = a
     else gen_idx G = (i * m)%nat /\ gen_fetched G = (a + 1)%nat /\ gen_data G = nb a (weights O (W a))) /\
    acc_iterations A = (it0 + a * f + i)%nat /\ acc_freq A = f /\
    (if (i <? f - r)%nat then inner A = W a /\ accumulators A = vadd (L a) (vsum d (map (g a (weights O (W a))) (seq 0 i)))
     else inner A = W (Datatypes.S a) /\ accumulators A = vsum d (map (g a (weights O (W (Datatypes.S a)))) (seq (f - r) (i - (f - r))))).

  Lemma next_at it0 a i G A : at_step it0 a i G A -> (i < f)%nat -> exists G2,
    next_mini_batch (fun k => nb k (weights O (inner A))) G = (G2, mini_batch m i (nb a (weights O (W a)))) /\
    gen_batch_size G2 = B /\ gen_mini G2 = m /\ gen_idx G2 = ((i + 1) * m)%nat /\ gen_fetched G2 = (a + 1)%nat /\ gen_data G2 = nb a (weights O (W a)).
  Proof.
    intros (G1 & G2 & G3 & _ & _ & H) Hi. unfold next_mini_batch. rewrite G1, G2.
    destruct (Nat.eqb_spec i 0) as [->|Z].
    - destruct G3 as [G3 G4]. destruct (Nat.ltb_spec B (gen_idx G + m)); [|lia]. destruct (Nat.ltb_spec 0 (f - r)); [|lia]. destruct H as [EI _]. rewrite EI, G4.
      eexists. split; [apply f_equal2; [reflexivity|]; unfold slice, mini_batch; apply f_equal2; [lia|apply f_equal2; [lia|reflexivity]]|]. cbn [gen_batch_size gen_mini gen_idx gen_fetched gen_data].
      repeat split; auto; lia.
    - destruct G3 as (G3 & G4 & G5). rewrite G3. destruct (Nat.ltb_spec B (i * m + m)); [nia|].
      eexists. split; [apply f_equal2; [reflexivity|]; rewrite G5; unfold slice, mini_batch; apply f_equal2; [lia|apply f_equal2; [lia|reflexivity]]|].
      cbn [gen_batch_size gen_mini gen_idx gen_fetched gen_data]. repeat split; auto; lia.
  Qed.

  Lemma fit_step it0 a i G A : (it0 mod f = r)%nat -> at_step it0 a i G A -> (i < f)%nat ->
    exists G2 A2, (let w := weights O (inner A) in let '(G2, b) := next_mini_batch (fun k => nb k w) G in
       do A2 <- train_step O sum 0 (fun v => v) A (mean_gradient d sg w b); Ok (G2, A2)) = Ok (G2, A2) /\ at_step it0 a (i + 1) G2 A2.
  Proof.
    intros Hit HI Hi. destruct (next_at it0 a i G A HI Hi) as (G2 & EN & J1 & J2 & J3 & J4 & J5). cbv zeta. rewrite EN.
    destruct HI as (_ & _ & _ & N & F & H). unfold train_step. rewrite N, F. destruct (Nat.eqb_spec f 0); [lia|]. rewrite scaled_gradient. fold c.
    pose proof (Nat.div_mod it0 f ltac:(lia)) as Dit. rewrite Hit in Dit.
    assert (Md : ((it0 + a * f + i + 1) mod f = (r + i + 1) mod f)%nat).
    { rewrite Dit. replace (f * (it0 / f) + r + a * f + i + 1)%nat with (r + i + 1 + (it0 / f + a) * f)%nat by lia. apply Nat.mod_add. lia. }
    rewrite Md. destruct (Nat.eqb_spec (i + 1) 0); [lia|].
    destruct (Nat.ltb_spec i (f - r)) as [Hlt|Hge].
    - destruct H as [EI EA]. rewrite EI, EA. change (vscale c (mean_gradient d sg (weights O (W a)) (mini_batch m i (nb a (weights O (W a)))))) with (g a (weights O (W a)) i).
      assert (EV : vadd (vadd (L a) (vsum d (map (g a (weights O (W a))) (seq 0 i)))) (g a (weights O (W a)) i) =
                   vadd (L a) (vsum d (map (g a (weights O (W a))) (seq 0 (i + 1))))).
      { rewrite Nat.add_1_r, seq_S, map_app. cbn [map]. rewrite <- vsum_snoc by (auto using g_sized; apply map_g_sized). rewrite Nat.add_0_l.
        apply vec_ext.
        - rewrite !vadd_length; rewrite ?vadd_length; rewrite ?L_sized, ?sum_g_sized, ?g_sized; reflexivity.
        - intros q. rewrite !nth_vadd; rewrite ?vadd_length; rewrite ?L_sized, ?sum_g_sized, ?g_sized; try reflexivity. ring. }
      rewrite EV. destruct (Nat.eq_dec (i + 1) (f - r)) as [E1|E1].
      + replace (r + i + 1)%nat with f by lia. rewrite Nat.mod_same by lia. cbn [Nat.eqb bind]. destruct (Rlt_dec 0 0); [lra|].
        eexists _, _. split; [reflexivity|]. unfold at_step. cbn [acc_iterations acc_freq accumulators inner].
        destruct (Nat.eqb_spec (i + 1) 0); [lia|]. destruct (Nat.ltb_spec (i + 1) (f - r)); [lia|].
        split; [auto|]. split; [auto|]. split; [auto|]. split; [lia|]. split; [auto|]. split.
        * rewrite (proj1 (U_step a)). rewrite E1. reflexivity.
        * replace (i + 1 - (f - r))%nat with 0%nat by lia. cbn [seq map]. unfold vsum at 2. cbn [fold_right]. f_equal.
          rewrite vadd_length; rewrite ?L_sized, ?sum_g_sized; reflexivity.
      + rewrite Nat.mod_small by lia. destruct (Nat.eqb_spec (r + i + 1) 0); [lia|]. cbn [bind]. eexists _, _. split; [reflexivity|]. unfold at_step.
        cbn [acc_iterations acc_freq accumulators inner]. destruct (Nat.eqb_spec (i + 1) 0); [lia|]. destruct (Nat.ltb_spec (i + 1) (f - r)); [|lia].
        split; [auto|]. split; [auto|]. split; [auto|]. split; [lia|]. split; [auto|]. split; [auto|reflexivity].
    - destruct H as [EI EA]. rewrite EI, EA. change (vscale c (mean_gradient d sg (weights O (W (Datatypes.S a))) (mini_batch m i (nb a (weights O (W a))))))
        with (g a (weights O (W (Datatypes.S a))) i).
      assert (E1 : ((r + i + 1) mod f = r + i + 1 - f)%nat). { symmetry. apply (Nat.mod_unique _ _ 1); lia. }
      rewrite E1. destruct (Nat.eqb_spec (r + i + 1 - f) 0); [lia|]. cbn [bind]. eexists _, _. split; [reflexivity|]. unfold at_step.
      cbn [acc_iterations acc_freq accumulators inner]. destruct (Nat.eqb_spec (i + 1) 0); [lia|]. destruct (Nat.ltb_spec (i + 1) (f - r)); [lia|].
      split; [auto|]. split; [auto|]. split; [auto|]. split; [lia|]. split; [auto|]. split; [auto|].
      rewrite vsum_snoc by (auto using g_sized; apply map_g_sized). f_equal.
      replace (i + 1 - (f - r))%nat with (Datatypes.S (i - (f - r))) by lia. rewrite seq_S, map_app. cbn [map]. repeat f_equal. lia.
  Qed.

  Lemma wrap_at it0 a G A : at_step it0 a f G A -> at_step it0 (a + 1) 0 G A.
  Proof.
    intros (G1 & G2 & G3 & N & F & H). unfold at_step. destruct (Nat.eqb_spec f 0); [lia|]. cbn [Nat.eqb]. destruct G3 as (G3 & G4 & G5).
    destruct (Nat.ltb_spec f (f - r)); [lia|]. destruct (Nat.ltb_spec 0 (f - r)); [|lia]. destruct H as [EI EA].
    split; [auto|]. split; [auto|]. split; [split; [nia|auto]|]. split; [lia|]. split; [auto|]. rewrite Nat.add_1_r. split; [auto|].
    rewrite EA. replace (f - (f - r))%nat with r by lia. rewrite <- (proj2 (U_step a)). cbn [seq map]. unfold vsum. cbn [fold_right].
    apply vec_ext. { rewrite vadd_length; rewrite L_sized, ?vzero_length; reflexivity. }
    intros q. rewrite nth_vadd, nth_vzero by (rewrite L_sized, vzero_length; reflexivity). ring.
  Qed.

  Lemma fit_at it0 G A : (it0 mod f = r)%nat -> at_step it0 0 0 G A -> forall a,
    exists G2 A2, fit O sum d nb sg G A (a * f) = Ok (G2, A2) /\ at_step it0 a 0 G2 A2.
  Proof.
    intros Hit HI. induction a as [|a IH]. { exists G, A. split; [reflexivity|exact HI]. }
    destruct IH as (G1 & A1 & E1 & I1).
    assert (K : forall i, (i <= f)%nat -> exists G2 A2, fit O sum d nb sg G A (a * f + i) = Ok (G2, A2) /\ at_step it0 a i G2 A2).
    { induction i as [|i IHi]; intros Hi. { exists G1, A1. rewrite Nat.add_0_r. split; assumption. }
      destruct IHi as (G2 & A2 & E2 & I2); [lia|]. rewrite Nat.add_succ_r. cbn [fit]. rewrite E2. cbn [bind].
      destruct (fit_step it0 a i G2 A2 Hit I2 ltac:(lia)) as (G3 & A3 & E3 & I3). exists G3, A3. split; [exact E3|]. now rewrite Nat.add_1_r in I3. }
    destruct (K f (le_n f)) as (G2 & A2 & E2 & I2). exists G2, A2. split. { rewrite <- E2. f_equal. lia. }
    rewrite <- Nat.add_1_r. now apply wrap_at.
  Qed.
End Stage.

Lemma frequency_facts mini B : (0 < B)%nat -> (0 < mini)%nat -> (B < mini \/ B mod mini = 0)%nat ->
  (0 < Nat.min mini B)%nat /\ (0 < frequency mini B)%nat /\ B = (frequency mini B * Nat.min mini B)%nat /\ (B mod Nat.min mini B = 0)%nat.
Proof.
  intros HB Hm HD. assert (E : (B mod Nat.min mini B = 0)%nat).
  { destruct HD as [L|D].
    - rewrite Nat.min_r by lia. apply Nat.mod_same. lia.
    - assert (mini <= B)%nat. { destruct (Nat.le_gt_cases mini B); [assumption|]. rewrite Nat.mod_small in D by lia. lia. }
      now rewrite Nat.min_l by lia. }
  pose proof (Nat.div_mod B (Nat.min mini B) ltac:(lia)) as D. rewrite E in D. unfold frequency.
  split; [lia|]. split; [|split; [lia|exact E]]. apply Nat.div_str_pos. lia.
Qed.

Lemma new_generator_frequency {X} mini B : (0 < B)%nat -> (0 < mini)%nat -> (B < mini \/ B mod mini = 0)%nat ->
  exists G : generator X, new_generator B (Some mini) = Ok G /\ gen_freq G = frequency mini B /\ gen_batch_size G = B /\ gen_mini G = Nat.min mini B /\
    gen_idx G = B /\ gen_fetched G = 0%nat.
Proof.
  intros HB Hm HD. destruct (frequency_facts mini B HB Hm HD) as (F1 & F2 & F3 & F4).
  destruct (new_generator_ok (X := X) empty_generator B (Some mini) HB) as (G & EG & G1 & G2 & G3 & G4 & G5 & G6). { intros E. injection E. lia. }
  exists G. split; [exact EG|]. rewrite Nat.min_comm in G3. rewrite G4, ceil_div_spec, G3 by lia. rewrite F4. cbn [Nat.eqb]. unfold frequency. repeat split; auto.
Qed.

Lemma stage_fit {X S} (O : optimizer S) d mini B sum (nb : nat -> list R -> list X) sg (A : accumulating S) k :
  (0 < B)%nat -> (0 < mini)%nat -> (B < mini \/ B mod mini = 0)%nat ->
  (forall c w, length (nb c w) = B) -> (forall s, length (weights O s) = d) -> (forall w x, length (sg w x) = d) -> length (accumulators A) = d ->
  let f := frequency mini B in
  let U := shifted_updates O d (step_scale sum f) f (acc_iterations A mod f) (Nat.min mini B) nb sg (accumulators A) (inner A) k in
  exists G Gn An, new_generator B (Some mini) = Ok G /\ gen_freq G = f /\
    fit O sum d nb sg G (set_update_params_frequency A f) (k * f) = Ok (Gn, An) /\
    inner An = fst U /\ accumulators An = snd U /\ length (accumulators An) = d /\ acc_iterations An = (acc_iterations A + k * f)%nat.
Proof.
  intros HB Hm HD HnB HO Hsg Hacc f U. destruct (frequency_facts mini B HB Hm HD) as (F1 & F2 & F3 & F4).
  destruct (new_generator_frequency (X := X) mini B HB Hm HD) as (G & EG & EF & G1 & G2 & G3 & G4).
  assert (Hr : (acc_iterations A mod f < f)%nat) by (apply Nat.mod_upper_bound; unfold f; lia).
  destruct (fit_at O d B (Nat.min mini B) f (acc_iterations A mod f) sum nb sg (inner A) (accumulators A) F1 F2 Hr F3 HnB Hsg Hacc
    (acc_iterations A) G (set_update_params_frequency A f) eq_refl) with (a := k) as (Gn & An & E & I).
  - split; [exact G1|]. split; [exact G2|]. cbn [Nat.eqb]. split; [split; [lia|exact G4]|]. split; [cbn; lia|]. split; [reflexivity|].
    destruct (Nat.ltb_spec 0 (f - acc_iterations A mod f)); [|lia]. split; [reflexivity|]. cbn [seq map set_update_params_frequency accumulators shifted_updates snd].
    unfold vsum. cbn [fold_right]. apply vec_ext. { rewrite vadd_length; rewrite ?vzero_length, ?Hacc; reflexivity. }
    intros q. rewrite nth_vadd, nth_vzero by (rewrite vzero_length; exact Hacc). ring.
  - exists G, Gn, An. split; [exact EG|]. split; [exact EF|]. split; [exact E|].
    destruct I as (_ & _ & _ & N & _ & H). destruct (Nat.ltb_spec 0 (f - acc_iterations A mod f)); [|lia]. destruct H as [EI EA].
    pose proof (L_sized O d B (Nat.min mini B) f (acc_iterations A mod f) sum nb sg (inner A) (accumulators A) F1 F2 Hr F3 HnB Hsg Hacc k) as LL.
    cbn [seq map] in EA. unfold vsum in EA. cbn [fold_right] in EA. fold f in LL.
    assert (EA' : accumulators An = snd U).
    { rewrite EA. unfold U. apply vec_ext. { rewrite vadd_length; rewrite ?vzero_length, ?LL; reflexivity. }
      intros q. rewrite nth_vadd, nth_vzero by (rewrite vzero_length, LL; reflexivity). ring. }
    split; [exact EI|]. split; [exact EA'|]. split; [rewrite EA'; exact LL|]. lia.
Qed.

Lemma stages_fit {X S} (O : nat -> optimizer S) d mini sum (nb : nat -> nat -> list R -> list X) sg : (0 < mini)%nat ->
  (forall i s, length (weights (O i) s) = d) -> (forall w x, length (sg w x) = d) -> forall stages idx (A : accumulating S),
  Forall (good_stage mini) stages -> (forall i c w st, nth_error stages i = Some st -> length (nb (idx + i)%nat c w) = stage_batch_size st) ->
  length (accumulators A) = d ->
  exists An, train_stages O sum d mini nb sg idx stages A = Ok An /\
    (inner An, accumulators An) = shifted_stages O d mini sum nb sg idx (acc_iterations A) stages (accumulators A) (inner A) /\
    length (accumulators An) = d /\ acc_iterations An = (acc_iterations A + steps_before mini stages)%nat.
Proof.
  intros Hm HO Hsg. induction stages as [|st t IH]; intros idx A HF HnB Hacc; cbn [train_stages shifted_stages steps_before].
  - exists A. repeat split; auto.
  - destruct (Forall_inv HF) as [HB HD]. pose proof (Forall_inv_tail HF) as HF'.
    destruct (stage_fit (O idx) d mini (stage_batch_size st) sum (nb idx) sg A (stage_updates st) HB Hm HD) as (G & Gn & An & EG & EF & E & EI & EA & EL & EN); auto.
    { intros c w. specialize (HnB 0%nat c w st eq_refl). now rewrite Nat.add_0_r in HnB. }
    rewrite EG. cbn [bind]. rewrite EF, E. cbn [bind snd].
    destruct (IH (Datatypes.S idx) An HF') as (Am & E1 & E2 & E3 & E4); auto.
    { intros i c w st' Hst. specialize (HnB (Datatypes.S i) c w st' Hst). now rewrite Nat.add_succ_r in HnB. }
    exists Am. split; [exact E1|]. split; [|split; [exact E3|lia]]. rewrite E2, EN. rewrite EI, EA.
    destruct (shifted_updates _ _ _ _ _ _ _ _ _ _ _) as [s' w']. reflexivity.
Qed.

(** * Aligned stages *)
Lemma aligned_updates {X S} (O : optimizer S) d mini B sum (nb : nat -> list R -> list X) sg s k :
  (0 < B)%nat -> (0 < mini)%nat -> (B < mini \/ B mod mini = 0)%nat ->
  (forall c w, length (nb c w) = B) -> (forall w x, length (sg w x) = d) ->
  let f := frequency mini B in
  shifted_updates O d (step_scale sum f) f 0 (Nat.min mini B) nb sg (vzero d) s k =
    (full_batch_training O d (if sum then INR f else 1) nb sg s k, vzero d).
Proof.
  intros HB Hm HD HnB Hsg f. destruct (frequency_facts mini B HB Hm HD) as (F1 & F2 & F3 & F4). fold f in F2, F3. set (m := Nat.min mini B) in *.
  assert (HS : forall w l v, In v (map (sg w) l) -> length v = d). { intros w l v Hv. apply in_map_iff in Hv. destruct Hv as (x & <- & _). apply Hsg. }
  induction k as [|k IH]; [reflexivity|]. cbn [shifted_updates full_batch_training]. rewrite IH. set (t := full_batch_training O d _ nb sg s k). set (w := weights O t).
  apply f_equal2; [|reflexivity]. f_equal. rewrite Nat.sub_0_r.
  set (l := map _ (seq 0 f)).
  assert (Hl : forall v, In v l -> length v = d).
  { intros v Hv. unfold l in Hv. apply in_map_iff in Hv. destruct Hv as (q & <- & _). rewrite !vscale_length. apply vsum_length, HS. }
  apply vec_ext.
  - rewrite vadd_length, vzero_length; rewrite ?vzero_length, ?vscale_length, ?vsum_length; auto. apply HS.
  - intros i. rewrite nth_vadd, nth_vzero by (rewrite vzero_length, vsum_length; auto). rewrite nth_vsum by exact Hl. unfold l. rewrite Rsum_map, Rplus_0_l.
    rewrite !nth_vscale, nth_vsum by apply HS. rewrite HnB, Rsum_map.
    rewrite (Rsum_ext _ (fun q => step_scale sum f * / INR m * Rsum (fun x => nth i (sg w x) 0) (slice (nb k w) (q * m) ((q + 1) * m)))).
    2: { intros q Hq. rewrite !nth_vscale, nth_vsum by apply HS. rewrite Rsum_map. unfold mini_batch, slice.
         replace ((q + 1) * m - q * m)%nat with m by lia. ring. }
    rewrite Rsum_scal.
    assert (E : Rsum (fun j => Rsum (fun x => nth i (sg w x) 0) (slice (nb k w) (j * m) ((j + 1) * m))) (seq 0 f) = Rsum (fun x => nth i (sg w x) 0) (nb k w)).
    { transitivity (Rsum (fun x => nth i (sg w x) 0) (concat (map (fun j => slice (nb k w) (j * m) ((j + 1) * m)) (range f)))).
      - rewrite <- flat_map_concat_map. unfold range. now rewrite Rsum_flat_map.
      - rewrite slices_concat by (rewrite HnB; exact F3). reflexivity. }
    rewrite E. rewrite F3, mult_INR. assert (INR f <> 0) by (apply not_0_INR; lia). assert (INR m <> 0) by (apply not_0_INR; lia).
    unfold step_scale. destruct sum; field; auto.
Qed.

Lemma aligned_stages {X S} (O : nat -> optimizer S) d mini sum (nb : nat -> nat -> list R -> list X) sg : (0 < mini)%nat ->
  (forall w x, length (sg w x) = d) -> forall stages idx seen s,
  Forall (good_stage mini) stages -> (forall i c w st, nth_error stages i = Some st -> length (nb (idx + i)%nat c w) = stage_batch_size st) ->
  aligned mini seen stages ->
  shifted_stages O d mini sum nb sg idx seen stages (vzero d) s = (staged_training O d mini (fun f => if sum then INR f else 1) nb sg idx stages s, vzero d).
Proof.
  intros Hm Hsg. induction stages as [|st t IH]; intros idx seen s HF HnB HA; cbn [shifted_stages staged_training]; [reflexivity|].
  destruct (Forall_inv HF) as [HB HD]. pose proof (Forall_inv_tail HF) as HF'. destruct HA as [H0 HA]. rewrite H0.
  rewrite (aligned_updates (O idx) d mini (stage_batch_size st) sum (nb idx) sg s (stage_updates st) HB Hm HD).
  - apply IH; auto. intros i c w st' Hst. specialize (HnB (Datatypes.S i) c w st' Hst). now rewrite Nat.add_succ_r in HnB.
  - intros c w. specialize (HnB 0%nat c w st eq_refl). now rewrite Nat.add_0_r in HnB.
  - exact Hsg.
Qed.
