(** Lemmas about the example scripts. *)
From Coq Require Import String List ZArith Reals Bool Arith Lia Lra.
From Verif Require Import Base Cplx IsingModel IsingProofs TrainingModel CheckpointModel CallbackModel CallbackSpec CallbackProofs StagesModel RunnerModel ExamplesModel ExamplesSpec.
Import ListNotations.
Local Notation train := CallbackModel.train.

(** * The stages of examples/ising.py *)

Definition record_of (mini b e : nat) : epoch_record :=
  let m := Nat.min mini b in {| number := e; size := b; mini_size := m; updated_every := (b + m - 1) / m; steps := 100 * ((b + m - 1) / m) |}.
Lemma stage_sizes_ok mini b : 0 < mini -> b < mini \/ b mod mini = 0 -> exists v, stage_sizes mini None (Scalar b) = Ok (b, v).
Proof.
  intros M H. unfold stage_sizes. cbn [bind]. destruct (Nat.ltb_spec b mini) as [L|L]; [eexists; reflexivity|]. destruct (Nat.eqb_spec mini 0); [lia|].
  destruct H as [H|H]; [lia|]. rewrite H, Nat.eqb_refl. eexists; reflexivity.
Qed.
Lemma generator_ok mini b : 0 < mini -> 0 < b ->
  exists G, @new_generator unit (fst (sampler_sizes b (Some mini))) (Some mini) = Ok G /\ gen_batch_size G = b /\ gen_mini G = Nat.min mini b /\ gen_freq G = (b + Nat.min mini b - 1) / Nat.min mini b.
Proof.
  intros M B. unfold new_generator, set_batch_size, sampler_sizes. cbn [fst]. cbv zeta. unfold ceil_div.
  destruct (Nat.ltb_spec b mini) as [L|L].
  - destruct (Nat.eqb_spec b 0); [lia|]. eexists. split; [reflexivity|]. cbn [gen_batch_size gen_mini gen_freq]. rewrite Nat.min_r by lia. auto.
  - destruct (Nat.eqb_spec mini 0); [lia|]. eexists. split; [reflexivity|]. cbn [gen_batch_size gen_mini gen_freq]. rewrite Nat.min_l by lia. auto.
Qed.
Definition good_batch (mini b : nat) : Prop := 0 < mini /\ 0 < b /\ (b < mini \/ b mod mini = 0).
Lemma stage_step mini idx b n t total k : good_batch mini b ->
  example_stages mini idx ((b, n) :: t) total k =
  if total + n <=? k then example_stages mini (S idx) t (total + n) k
  else let '(epochs, files, err) := example_stages mini (S idx) t (total + n) (total + n) in
       (map (record_of mini b) (seq k (total + n - k)) ++ epochs, idx :: files, err).
Proof.
  intros (M & B & H). cbn [example_stages]. destruct (_ <=? _); [reflexivity|]. destruct (stage_sizes_ok mini b M H) as [v ->].
  destruct (generator_ok mini b M B) as (G & -> & <- & -> & ->). reflexivity.
Qed.
Lemma seq_split k a b : k <= a -> a <= b -> seq k (b - k) = seq k (a - k) ++ seq a (b - a).
Proof. intros H1 H2. replace (b - k) with ((a - k) + (b - a)) by lia. rewrite seq_app. f_equal. f_equal. lia. Qed.
Lemma map_seq_ext {B} (f g : nat -> B) k n : (forall e, k <= e < k + n -> f e = g e) -> map f (seq k n) = map g (seq k n).
Proof. intros H. apply map_ext_in. intros e He. apply in_seq in He. apply H. lia. Qed.
Lemma stages_ok mini b1 b2 b3 k : good_batch mini b1 -> good_batch mini b2 -> good_batch mini b3 ->
  example_stages mini 0 [(b1, 100); (b2, 100); (b3, 50)] 0 k =
  (map (fun e => record_of mini (if e <? 100 then b1 else if e <? 200 then b2 else b3) e) (seq k (250 - k)), stages_after k, None).
Proof.
  intros G1 G2 G3. set (f := fun e => record_of mini _ e).
  assert (F1 : forall k n, k + n <= 100 -> map (record_of mini b1) (seq k n) = map f (seq k n)).
  { intros k' n H. apply map_seq_ext. intros e He. unfold f. rewrite (proj2 (Nat.ltb_lt e 100)) by lia. reflexivity. }
  assert (F2 : forall k n, 100 <= k -> k + n <= 200 -> map (record_of mini b2) (seq k n) = map f (seq k n)).
  { intros k' n H H'. apply map_seq_ext. intros e He. unfold f. rewrite (proj2 (Nat.ltb_ge e 100)), (proj2 (Nat.ltb_lt e 200)) by lia. reflexivity. }
  assert (F3 : forall k n, 200 <= k -> map (record_of mini b3) (seq k n) = map f (seq k n)).
  { intros k' n H. apply map_seq_ext. intros e He. unfold f. rewrite (proj2 (Nat.ltb_ge e 100)), (proj2 (Nat.ltb_ge e 200)) by lia. reflexivity. }
  clearbody f. rewrite !stage_step by assumption. unfold stages_after. cbn [filter nth].
  change (0 + 100) with 100. change (100 + 100) with 200. change (200 + 50) with 250.
  destruct (Nat.leb_spec 100 k) as [L1|L1].
  - rewrite (proj2 (Nat.ltb_ge k 100)) by lia. change (100 + 100) with 200. change (200 + 50) with 250.
    destruct (Nat.leb_spec 200 k) as [L2|L2].
    + rewrite (proj2 (Nat.ltb_ge k 200)) by lia. change (200 + 50) with 250. destruct (Nat.leb_spec 250 k) as [L3|L3].
      * rewrite (proj2 (Nat.ltb_ge k 250)) by lia. cbn [example_stages]. replace (250 - k) with 0 by lia. reflexivity.
      * rewrite (proj2 (Nat.ltb_lt k 250)) by lia. cbn [example_stages]. rewrite F3, app_nil_r by lia. reflexivity.
    + rewrite (proj2 (Nat.ltb_lt k 200)), (proj2 (Nat.ltb_lt k 250)) by lia. change (200 + 50) with 250. change (250 <=? 200) with false.
      cbn [example_stages]. rewrite F2, F3 by lia. rewrite app_nil_r, <- map_app, <- seq_split by lia. reflexivity.
  - rewrite (proj2 (Nat.ltb_lt k 100)), (proj2 (Nat.ltb_lt k 200)), (proj2 (Nat.ltb_lt k 250)) by lia. change (100 + 100) with 200.
    change (200 <=? 100) with false. change (200 + 50) with 250. change (250 <=? 200) with false.
    cbn [example_stages]. rewrite F1, F2, F3 by lia. rewrite app_nil_r, <- !map_app.
    rewrite <- (seq_split 100 200 250), <- (seq_split k 100 250) by lia. reflexivity.
Qed.
Lemma pow2_good a b : good_batch (2 ^ a) (2 ^ b).
Proof.
  assert (P : forall c, 0 < 2 ^ c) by (intros c; pose proof (Nat.pow_nonzero 2 c); lia). split; [apply P|]. split; [apply P|].
  destruct (Nat.lt_ge_cases b a) as [H|H]; [left; apply Nat.pow_lt_mono_r; lia|right]. replace b with (b - a + a) by lia. rewrite Nat.pow_add_r. apply Nat.mod_mul.
  pose proof (P a). lia.
Qed.

(** * The grid of parameters *)

Lemma product_length {A} (vs : list (list A)) : length (product vs) = combinations vs.
Proof.
  induction vs as [|v t IH]; [reflexivity|]. cbn [product combinations fold_right]. fold (combinations t). rewrite <- IH. induction v as [|a v IHv]; [reflexivity|].
  cbn [flat_map length]. rewrite app_length, map_length, IHv. lia.
Qed.
Lemma in_product {A} (vs : list (list A)) c : In c (product vs) <-> Forall2 (fun x v => In x v) c vs.
Proof.
  revert c. induction vs as [|v t IH]; intros c; cbn [product].
  - split; [intros [<-|[]]; constructor|intros H; inversion H; now left].
  - rewrite in_flat_map. split.
    + intros (a & Ha & Hc). apply in_map_iff in Hc. destruct Hc as (c' & <- & Hc). constructor; [exact Ha|]. now apply IH.
    + intros H. inversion H; subst. exists x. split; [assumption|]. apply in_map. now apply IH.
Qed.
Lemma NoDup_app' {A} (a b : list A) : NoDup a -> NoDup b -> (forall x, In x a -> ~ In x b) -> NoDup (a ++ b).
Proof.
  induction a as [|x a IH]; intros Ha Hb D; [exact Hb|]. cbn [app]. inversion Ha; subst. constructor.
  - rewrite in_app_iff. intros [H|H]; [auto|]. apply (D x); [now left|exact H].
  - apply IH; auto. intros y Hy. apply D. now right.
Qed.
Lemma product_NoDup {A} (vs : list (list A)) : Forall (@NoDup A) vs -> NoDup (product vs).
Proof.
  induction vs as [|v t IH]; intros H; [repeat constructor; intros []|]. inversion H; subst. specialize (IH H3). cbn [product]. clear H H3.
  induction H2 as [|a v N D IHv]; [constructor|]. cbn [flat_map]. apply NoDup_app'; [|exact IHv|].
  - apply FinFun.Injective_map_NoDup; [|exact IH]. intros x y E. now injection E.
  - intros c Hc Hd. apply in_map_iff in Hc. destruct Hc as (c' & <- & _). apply in_flat_map in Hd. destruct Hd as (b & Hb & Hd). apply in_map_iff in Hd.
    destruct Hd as (c'' & E & _). injection E as -> _. contradiction.
Qed.
Lemma product_row_length {A} (vs : list (list A)) c : In c (product vs) -> length c = length vs.
Proof. intros H. apply in_product in H. induction H; cbn; congruence. Qed.
Lemma nth_blocks {A B} (f : A -> list B) m (l : list A) r dA dB : (forall a, length (f a) = m) -> r < length l * m ->
  nth r (flat_map f l) dB = nth (r mod m) (f (nth (r / m) l dA)) dB.
Proof.
  intros Lf. revert r. induction l as [|a l IH]; intros r Hr; [cbn in Hr; lia|]. cbn [length] in Hr. cbn [flat_map].
  assert (M : m <> 0) by (intros ->; lia). destruct (Nat.lt_ge_cases r m) as [H|H].
  - rewrite app_nth1 by (rewrite Lf; lia). rewrite Nat.mod_small, Nat.div_small by lia. reflexivity.
  - rewrite app_nth2 by (rewrite Lf; lia). rewrite Lf, IH by lia. replace r with (r - m + 1 * m) at 3 4 by lia. rewrite Nat.mod_add, Nat.div_add by lia.
    rewrite Nat.add_1_r. reflexivity.
Qed.
Lemma product_nth {A} (vs : list (list A)) r d j v da : r < combinations vs -> nth_error vs j = Some v ->
  nth j (nth r (product vs) d) da = nth ((r / combinations (skipn (S j) vs)) mod length v) v da /\ 0 < length v.
Proof.
  revert r j. induction vs as [|u t IH]; intros r j Hr Hj; [destruct j; discriminate|]. cbn [combinations fold_right] in Hr. fold (combinations t) in Hr.
  assert (M : combinations t <> 0) by (intros E; rewrite E in Hr; lia).
  assert (U : length u <> 0) by (intros E; rewrite E in Hr; lia).
  destruct u as [|u0 u']; [cbn in U; lia|]. set (u := u0 :: u') in *.
  cbn [product]. rewrite (nth_blocks _ (combinations t) u r u0 d) by (intros; rewrite ?map_length, ?product_length; auto).
  assert (Hm : r mod combinations t < combinations t) by (apply Nat.mod_upper_bound; exact M).
  rewrite (nth_indep _ d (cons (nth (r / combinations t) u u0) d)) by (rewrite map_length, product_length; exact Hm). rewrite map_nth.
  destruct j as [|j].
  - cbn [nth_error] in Hj. injection Hj as <-. cbn [nth skipn]. assert (Hd : r / combinations t < length u) by (apply Nat.div_lt_upper_bound; lia).
    rewrite Nat.mod_small by exact Hd. split; [|lia]. apply nth_indep. exact Hd.
  - cbn [nth_error] in Hj. cbn [nth]. destruct (IH (r mod combinations t) j Hm Hj) as [E P]. split; [|exact P]. rewrite E. change (skipn (S (S j)) (u :: t)) with (skipn (S j) t). f_equal.
    assert (D : exists q, combinations t = combinations (skipn (S j) t) * (length v * q)).
    { clear -Hj. revert j Hj. induction t as [|w t IH]; intros j Hj; [destruct j; discriminate|]. destruct j as [|j].
      - cbn [nth_error] in Hj. injection Hj as <-. exists 1. cbn [skipn combinations fold_right]. fold (combinations t). lia.
      - cbn [nth_error] in Hj. destruct (IH j Hj) as [q E]. exists (length w * q). change (skipn (S (S j)) (w :: t)) with (skipn (S j) t). cbn [combinations fold_right]. fold (combinations t). rewrite E at 1. lia. }
    destruct D as [q D]. set (c := combinations (skipn (S j) t)) in *. assert (c <> 0 /\ q <> 0) as [C0' Q0] by (split; intros E'; rewrite E' in D; lia).
    rewrite D. rewrite Nat.mod_mul_r by lia. rewrite (Nat.mul_comm c), Nat.div_add by lia. rewrite (Nat.div_small (r mod c)) by (apply Nat.mod_upper_bound; lia). cbn [Nat.add].
    rewrite Nat.mod_mul_r by lia. rewrite (Nat.mul_comm (length v)), Nat.mod_add by lia. apply Nat.mod_mod. lia.
Qed.

(** * Training with the early stopping of examples/j1j2_2d_monte_carlo_4.py *)

Definition quiet (cs : list callback) : Prop := forall c b w l, In c cs -> on_batch_end c b w l = Ok (w, l).
Lemma quiet_call cs b w l : quiet cs -> call_all (fun c => on_batch_end c b) cs w l = Ok (w, l).
Proof.
  revert w l. induction cs as [|c t IH]; intros w l Q; [reflexivity|]. cbn [call_all]. rewrite (Q c b w l (or_introl eq_refl)). cbn [bind fst snd].
  apply IH. intros c' b' w' l' H. apply Q. now right.
Qed.
Definition set_train (v : vmc) (w : world) : world :=
  {| CallbackModel.train := v; val := val w; clock := clock w; reads := reads w; stop_training := stop_training w; stopped_epoch := stopped_epoch w |}.
Lemma quiet_batches cs n b w : quiet cs -> train_batches cs n b w = Ok (set_train (nexts (train w) n) w).
Proof.
  intros Q. revert b w. induction n as [|n IH]; intros b w; cbn [train_batches nexts]; [destruct w; reflexivity|]. rewrite quiet_call by exact Q. cbn [bind fst]. rewrite IH. reflexivity.
Qed.
Lemma nexts_same v n : same_values v (nexts v n).
Proof. revert v. induction n as [|n IH]; intros v; [apply same_refl|]. cbn [nexts]. exact (IH (vmc_next v)). Qed.
Lemma nexts_keep v n : whole v -> whole (nexts v n).
Proof. revert v. induction n as [|n IH]; intros v W; [exact W|]. cbn [nexts]. apply IH. now apply whole_next. Qed.

Definition stopping_callbacks (x : R) : list callback := default_callbacks false (Some x) false 1 ++ [BadEigenStateStopping x 0.01 0.1 10].
Lemma stopping_quiet x : quiet (stopping_callbacks x).
Proof. intros c b w l [<-|[<-|[<-|[<-|[<-|[]]]]]]; reflexivity. Qed.
(** The end of an epoch. *)
Lemma call_all_app f a b w l : call_all f (a ++ b) w l = do r <- call_all f a w l ; call_all f b (fst r) (snd r).
Proof. revert w l. induction a as [|c a IH]; intros w l; [reflexivity|]. cbn [app call_all]. destruct (f c w l) as [r|e]; [cbn [bind]; apply IH|reflexivity]. Qed.
Lemma epoch_four x e w k : fetched (train w) = S k ->
  call_all (fun c => on_epoch_end c e) (default_callbacks false (Some x) false 1) w [] = Ok (snd (read_clock w), step_entries (Some x) (train w) (S k) (clock w (reads w))).
Proof. intros F. destruct w as [[[a b c d f n] t1 t2 t3 t4 t5 t6] va ck rd st se]. cbn in F. subst n. reflexivity. Qed.
Lemma epoch_stopping x e w k : x <> 0%R -> fetched (train w) = S k ->
  exists w' l, call_all (fun c => on_epoch_end c e) (stopping_callbacks x) w [] = Ok (w', l) /\ train w' = train w /\
    ((10 <= e /\ bad_batch x (train w) (S k) /\ stop_training w' = true /\ stopped_epoch w' = Some e) \/
     (~ (10 <= e /\ bad_batch x (train w) (S k)) /\ stop_training w' = stop_training w /\ stopped_epoch w' = stopped_epoch w)).
Proof.
  intros X F. unfold stopping_callbacks. rewrite call_all_app, (epoch_four x e w k F). cbn [bind fst snd call_all on_epoch_end]. unfold energy_and_variance.
  change (lookup "val_energy/energy" _) with (@None R). change (lookup "energy/energy" _) with (Some (Re (current_energy (train w) (S k)))). cbv iota beta.
  unfold get_log. change (lookup "energy/local_energy_variance" _) with (Some (Re (current_local_energy_variance (train w) (S k)))). cbn [bind]. unfold bad_batch.
  destruct (Nat.ltb_spec e 10) as [L|L].
  - cbn [bind fst snd]. eexists. eexists. split; [reflexivity|]. split; [reflexivity|]. right. split; [lia|]. split; reflexivity.
  - unfold exceeds. destruct (Req_EM_T x 0) as [E0|_]; [contradiction|]. destruct (Rlt_dec 0.1 _) as [P|P]; [destruct (Rlt_dec _ 0.01) as [Q|Q]|]; cbn [andb bind fst snd];
      (eexists; eexists; split; [reflexivity|]; split; [reflexivity|]).
    + left. split; [exact L|]. split; [|split; reflexivity]. split; assumption.
    + right. split; [|split; reflexivity]. intros (_ & _ & B). contradiction.
    + right. split; [|split; reflexivity]. intros (_ & B & _). contradiction.
Qed.
Lemma bad_batch_same x v v' k : same_values v v' -> bad_batch x v' k <-> bad_batch x v k.
Proof. intros (A & B & _). unfold bad_batch. now rewrite A, B. Qed.

Lemma fit_stopping x steps : x <> 0%R -> 0 < steps -> forall n e w, whole (train w) -> stop_training w = false -> stopped_epoch w = None ->
  let bad j := 10 <= e + j /\ bad_batch x (train w) (fetched (train w) + steps * (j + 1)) in
  exists w' ls, fit_generator (stopping_callbacks x) steps n e w = Ok (w', ls) /\ same_values (train w) (train w') /\ whole (train w') /\
    ((exists j, j < n /\ bad j /\ (forall i, i < j -> ~ bad i) /\ stopped_epoch w' = Some (e + j) /\ fetched (train w') = fetched (train w) + steps * (j + 1)) \/
     ((forall i, i < n -> ~ bad i) /\ stopped_epoch w' = None /\ stop_training w' = false /\ fetched (train w') = fetched (train w) + steps * n)).
Proof.
  intros X S0. induction n as [|n IH]; intros e w W NS NE; cbn [fit_generator]; cbv zeta.
  - exists w, []. split; [reflexivity|]. split; [apply same_refl|]. split; [exact W|]. right. split; [intros; lia|]. repeat split; auto. lia.
  - rewrite NS, quiet_batches by apply stopping_quiet. cbn [bind]. set (w1 := set_train (nexts (train w) steps) w).
    assert (F1 : fetched (train w1) = fetched (train w) + steps) by (exact (nexts_whole _ _ W)).
    assert (W1 : whole (train w1)) by (now apply nexts_keep). assert (V1 : same_values (train w) (train w1)) by (apply nexts_same).
    destruct (fetched (train w1)) as [|k] eqn:E; [lia|]. destruct (epoch_stopping x e w1 k X E) as (w2 & l & -> & T2 & C). cbn [bind fst snd].
    assert (K : S k = fetched (train w) + steps * (0 + 1)) by lia.
    destruct C as [(C1 & C2 & C3 & C4)|(C1 & C2 & C3)].
    + assert (FG : fit_generator (stopping_callbacks x) steps n (S e) w2 = Ok (w2, [])) by (destruct n; cbn [fit_generator]; [|rewrite C3]; reflexivity).
      rewrite FG. cbn [bind fst snd]. eexists w2, _. split; [reflexivity|]. rewrite T2. split; [exact V1|]. split; [exact W1|]. left. exists 0. split; [lia|].
      rewrite Nat.add_0_r. split; [|split; [intros; lia|split; [exact C4|lia]]]. split; [exact C1|]. rewrite <- K. now apply (bad_batch_same x _ _ _ V1).
    + assert (C2' : stop_training w2 = false) by (rewrite C2; exact NS). assert (C3' : stopped_epoch w2 = None) by (rewrite C3; exact NE).
      rewrite <- T2 in W1. destruct (IH (S e) w2 W1 C2' C3') as (w' & ls & FG & V & W' & D). rewrite FG. cbn [bind fst snd]. eexists w', _. split; [reflexivity|].
      split; [eapply same_trans; [exact V1|rewrite <- T2; exact V]|]. split; [exact W'|].
      assert (B0 : ~ (10 <= e + 0 /\ bad_batch x (train w) (fetched (train w) + steps * (0 + 1)))).
      { rewrite Nat.add_0_r. rewrite <- K. intros [H1 H2]. apply C1. split; [exact H1|]. now apply (bad_batch_same x _ _ _ V1). }
      assert (FS : fetched (train w2) = fetched (train w) + steps) by (rewrite T2, E; exact F1). rewrite FS in D.
      assert (BS : forall j, (10 <= S e + j /\ bad_batch x (train w2) (fetched (train w) + steps + steps * (j + 1))) <-> (10 <= e + S j /\ bad_batch x (train w) (fetched (train w) + steps * (S j + 1)))).
      { intros j. rewrite T2. rewrite (bad_batch_same x _ _ _ V1). replace (fetched (train w) + steps + steps * (j + 1)) with (fetched (train w) + steps * (S j + 1)) by lia.
        replace (S e + j) with (e + S j) by lia. tauto. }
      destruct D as [(j & D1 & D2 & D3 & D4 & D5)|(D1 & D2 & D3 & D4)].
      * left. exists (S j). split; [lia|]. split; [now apply BS|]. split; [|split; [rewrite D4; f_equal; lia|rewrite D5; lia]].
        intros [|i] Hi; [exact B0|]. rewrite <- BS. apply D3. lia.
      * right. split; [intros [|i] Hi; [exact B0|]; rewrite <- BS; apply D1; lia|]. split; [exact D2|]. split; [exact D3|]. rewrite D4. lia.
Qed.

(** * Means of the entries of the default callbacks *)

Lemma mean_entries x g (kk : nat -> nat) (now : nat -> R) n : 0 < n ->
  exists r, mean_logs (map (fun j => step_entries (Some x) g (kk j) (now j)) (seq 0 n)) None = Ok r /\
    lookup "energy/energy" r = Some (average (fun i => Re (current_energy g (kk i))) n) /\
    lookup "energy/local_energy_variance" r = Some (average (fun i => Re (current_local_energy_variance g (kk i))) n) /\
    lookup "energy/relative_error" r = Some (average (fun i => (x - Re (current_energy g (kk i))) / x)%R n) /\
    lookup "observables/sigma_z" r = Some (average (fun i => Re (observable_value g "sigma_z" (kk i))) n) /\
    lookup "observables/abs_sigma_z" r = Some (average (fun i => Re (observable_value g "abs_sigma_z" (kk i))) n).
Proof.
  intros N. destruct n as [|n]; [lia|]. set (entry := fun j => step_entries (Some x) g (kk j) (now j)). cbn [seq map].
  rewrite mean_logs_none, mean_logs_keys_ok.
  2:{ intros k l Hk Hl. change (entry 0 :: map entry (seq 1 n)) with (map entry (seq 0 (S n))) in Hl. apply in_map_iff in Hl. destruct Hl as [j [<- _]].
      apply has_In. exact Hk. }
  change (entry 0 :: map entry (seq 1 n)) with (map entry (seq 0 (S n))). eexists. split; [reflexivity|].
  assert (A : forall key (f : nat -> R), (forall j, CallbackSpec.value key (entry j) = f j) -> mean (map (CallbackSpec.value key) (map entry (seq 0 (S n)))) = average f (S n)).
  { intros key f Hf. unfold mean, average. rewrite map_map, map_length, seq_length, Rsum_map. f_equal. apply Rsum_ext. intros j _. apply Hf. }
  split; [|split; [|split; [|split]]]; (rewrite lookup_map_key by (cbn; tauto)); f_equal; apply A; reflexivity.
Qed.
Lemma entries_has x g k t key : In key ["energy/energy"; "energy/relative_error"]%string -> has key (step_entries (Some x) g k t).
Proof. intros [<-|[<-|[]]]; eexists; reflexivity. Qed.
Lemma average_const c n : 0 < n -> average (fun _ => c) n = c.
Proof.
  intros N. unfold average. assert (H : Rsum (fun _ => c) (seq 0 n) = (INR n * c)%R).
  { rewrite <- (seq_length n 0) at 2. generalize (seq 0 n). intros l. induction l as [|a l IH]; [cbn; lra|]. rewrite Rsum_cons, IH. cbn [length]. rewrite S_INR. lra. }
  rewrite H. field. apply not_0_INR. lia.
Qed.

(** * evaluate with another generator *)

Lemma evaluate_other_default x ib p keys n : (forall key, In key keys -> In key ["energy/energy"; "energy/relative_error"]%string) ->
  forall i other w k arr, fetched (train w) = S k -> (forall l key, In l arr -> In key keys -> has key l) ->
  exists w', evaluate_other_loop (default_callbacks false (Some x) ib p) (Some keys) n i other w arr =
    do r <- mean_logs (arr ++ map (fun j => step_entries (Some x) (train w) (S k) (clock w (reads w + j))) (seq 0 n)) None ; Ok (nexts other n, w', r).
Proof.
  intros HK. induction n as [|n IH]; intros i other w k arr F HA; cbn [evaluate_other_loop].
  - exists w. cbn [seq map]. rewrite app_nil_r. reflexivity.
  - rewrite (both_default (Some x) ib p i w k F). cbn [bind fst snd]. set (l := step_entries _ _ _ _).
    assert (HA' : forall l' key, In l' (arr ++ [l]) -> In key keys -> has key l').
    { intros l' key Hl Hk. apply in_app_iff in Hl. destruct Hl as [Hl|[<-|[]]]; [now apply HA|]. apply entries_has. now apply HK. }
    rewrite mean_logs_keys_ok by (intros; now apply HA'). cbn [bind].
    destruct (IH (S i) (vmc_next other) (snd (read_clock w)) k (arr ++ [l]) F HA') as [w' E]. exists w'. rewrite E. rewrite <- app_assoc. cbn [app seq map nexts].
    rewrite <- seq_shift, map_map. unfold l. rewrite Nat.add_0_r. do 4 f_equal. apply map_ext. intros j. cbn [read_clock snd clock reads]. now rewrite Nat.add_succ_comm.
Qed.

(** * evaluate with a generator of whole batches that has been used before *)

Lemma evaluate_whole x ib p keys n w : (forall key, In key keys -> In key ["energy/energy"; "energy/relative_error"]%string) -> whole (train w) ->
  exists w', evaluate (default_callbacks false (Some x) ib p) (Some keys) n w =
    do r <- mean_logs (map (fun j => step_entries (Some x) (train w) (fetched (train w) + S j) (clock w (reads w + j))) (seq 0 n)) None ; Ok (w', r).
Proof.
  intros HK W. pose proof (logged_default (Some x) ib p n 0 w (whole_ready _ W)) as L. destruct (evaluate_loop_logged _ n 0 w [] _ L) as [w' G]. exists w'.
  unfold evaluate. rewrite (evaluate_loop_keys _ keys n 0 w [] _ L).
  - rewrite G. cbn [app]. f_equal. f_equal. apply map_ext. intros j. now rewrite nexts_whole by exact W.
  - intros key l Hk Hl. cbn [app] in Hl. apply in_map_iff in Hl. destruct Hl as (j & <- & _). apply entries_has. now apply HK.
Qed.
Lemma batches_default x p n : forall b w, whole (train w) ->
  exists w', train_batches (default_callbacks false (Some x) true p) n b w = Ok w' /\ train w' = nexts (train w) n /\ stop_training w' = stop_training w.
Proof.
  induction n as [|n IH]; intros b w W; cbn [train_batches nexts]; [exists w; auto|]. destruct (whole_next _ W) as [W1 F1].
  assert (E : exists l, call_all (fun c => on_batch_end c b) (default_callbacks false (Some x) true p) (advance_train w) [] = Ok (snd (read_clock (advance_train w)), l)).
  { assert (F : fetched (train (advance_train w)) = S (fetched (train w))) by exact F1. destruct (advance_train w) as [[[a b' c d f k] t1 t2 t3 t4 t5 t6] va ck rd st se].
    cbn in F. subst k. eexists. reflexivity. }
  destruct E as [l ->]. cbn [bind fst]. destruct (IH (S b) (snd (read_clock (advance_train w))) W1) as (w' & E & T & St). exists w'. split; [exact E|]. split; [exact T|exact St].
Qed.
Lemma fit_in_batch x p steps n : forall e w, whole (train w) -> stop_training w = false ->
  exists w' ls, fit_generator (default_callbacks false (Some x) true p) steps n e w = Ok (w', ls) /\ same_values (train w) (train w') /\ whole (train w') /\
    fetched (train w') = fetched (train w) + steps * n.
Proof.
  induction n as [|n IH]; intros e w W NS; cbn [fit_generator].
  - exists w, []. split; [reflexivity|]. split; [apply same_refl|]. split; [exact W|lia].
  - rewrite NS. destruct (batches_default x p steps 0 w W) as (w1 & -> & T & St). cbn [bind].
    change (call_all (fun c => on_epoch_end c e) (default_callbacks false (Some x) true p) w1 []) with (Ok (w1, @nil (string * R))). cbn [bind fst snd].
    assert (W1 : whole (train w1)) by (rewrite T; now apply nexts_keep). destruct (IH (S e) w1 W1 ltac:(congruence)) as (w' & ls & -> & V & W' & F). cbn [bind fst snd].
    eexists w', _. split; [reflexivity|]. split; [eapply same_trans; [|exact V]; rewrite T; apply nexts_same|]. split; [exact W'|]. rewrite F, T, nexts_whole by exact W. lia.
Qed.
Lemma same_entries e0 v v' k t : same_values v v' -> step_entries e0 v' k t = step_entries e0 v k t.
Proof. intros (A & B & C & D & E & F). unfold step_entries. now rewrite A, B, C, D, E, F. Qed.
