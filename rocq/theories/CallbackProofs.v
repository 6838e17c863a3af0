(** Lemmas about callbacks and evaluation. *)
From Coq Require Import List ZArith Reals Bool Arith Lia Lra String.
From Verif Require Import Base Cplx IsingModel IsingProofs TrainingModel CheckpointModel CallbackModel CallbackSpec.
Import ListNotations.

(** * Means *)

Lemma mapM_err {A B} (f : A -> res B) l e : (forall x, In x l -> f x = Err e \/ exists b, f x = Ok b) -> (exists x, In x l /\ f x = Err e) -> mapM f l = Err e.
Proof.
  induction l as [|x t IH]; intros H [y [Hy E]]; [destruct Hy|]. cbn [mapM].
  destruct (H x (or_introl eq_refl)) as [Ex|[b Ex]]; rewrite Ex; cbn [bind]; [reflexivity|].
  destruct Hy as [->|Hy]; [congruence|]. rewrite IH; [reflexivity|intros z Hz; apply H; now right|]. now exists y.
Qed.
Lemma mapM_get key ls : (forall l, In l ls -> has key l) -> mapM (get_log key) ls = Ok (map (value key) ls).
Proof. intros H. apply mapM_ok. intros l Hl. destruct (H l Hl) as [v E]. unfold get_log, value. now rewrite E. Qed.
Lemma get_cases key l : get_log key l = Err KeyError \/ exists v, get_log key l = Ok v.
Proof. unfold get_log. destruct (lookup key l); [right; eexists; reflexivity|now left]. Qed.
Lemma mapM_get_missing key ls : (exists l, In l ls /\ ~ has key l) -> mapM (get_log key) ls = Err KeyError.
Proof.
  intros [l [Hl N]]. apply mapM_err; [intros; apply get_cases|]. exists l. split; [exact Hl|]. unfold get_log. destruct (lookup key l) eqn:E; [|reflexivity].
  exfalso. apply N. now exists r.
Qed.
Lemma has_dec key l : has key l \/ ~ has key l.
Proof. unfold has. destruct (lookup key l); [left; eexists; reflexivity|right; intros [v H]; discriminate]. Qed.
Lemma has_all_dec key ls : (forall l, In l ls -> has key l) \/ (exists l, In l ls /\ ~ has key l).
Proof.
  induction ls as [|l t IH]; [left; intros ? []|]. destruct (has_dec key l) as [H|H]; [|right; exists l; split; [now left|assumption]].
  destruct IH as [IH|[m [Hm N]]]; [left; intros m [<-|Hm]; auto|right; exists m; split; [now right|assumption]].
Qed.
Lemma mapM_key_cases key ls : mapM (get_log key) ls = Err KeyError \/ exists vs, mapM (get_log key) ls = Ok vs.
Proof. destruct (has_all_dec key ls) as [H|H]; [right; eexists; now apply mapM_get|left; now apply mapM_get_missing]. Qed.

Lemma has_In key (l : logs) : has key l <-> In key (map fst l).
Proof.
  unfold has. induction l as [|[k v] t IH]; cbn [lookup map fst In].
  - split; [intros [v H]; discriminate|tauto].
  - destruct (String.eqb_spec k key) as [->|N]; [split; [now left|intros _; now exists v]|]. rewrite IH. split; [now right|intros [?|?]; [congruence|assumption]].
Qed.

Lemma lookup_map_key (f : string -> R) keys key : In key keys -> lookup key (map (fun k => (k, f k)) keys) = Some (f key).
Proof.
  induction keys as [|k t IH]; intros H; [destruct H|]. cbn [map lookup]. destruct (String.eqb_spec k key) as [->|N]; [reflexivity|].
  destruct H; [congruence|auto].
Qed.

Lemma mean_logs_keys_ok ls keys : (forall k l, In k keys -> In l ls -> has k l) ->
  mean_logs ls (Some keys) = Ok (map (fun k => (k, mean (map (value k) ls))) keys).
Proof. intros H. unfold mean_logs. cbn [bind]. apply mapM_ok. intros k Hk. rewrite mapM_get by (intros; now apply H). reflexivity. Qed.
Lemma mean_logs_keys_err ls keys : (exists k l, In k keys /\ In l ls /\ ~ has k l) -> mean_logs ls (Some keys) = Err KeyError.
Proof.
  intros (k & l & Hk & Hl & N). unfold mean_logs. cbn [bind]. apply mapM_err.
  - intros x _. destruct (mapM_key_cases x ls) as [E|[vs E]]; rewrite E; cbn [bind]; [now left|right; eexists; reflexivity].
  - exists k. split; [exact Hk|]. rewrite mapM_get_missing; [reflexivity|]. now exists l.
Qed.
Lemma mean_logs_none l ls : mean_logs (l :: ls) None = mean_logs (l :: ls) (Some (map fst l)).
Proof. reflexivity. Qed.

(** The loop without progress bar keys. *)
Lemma evaluate_loop_logged cs steps : forall i w arr ls, logged cs steps i w = Ok ls ->
  exists w', evaluate_loop cs None steps i w arr = (do r <- mean_logs (arr ++ ls) None ; Ok (w', r)).
Proof.
  induction steps as [|k IH]; intros i w arr ls; cbn [logged evaluate_loop].
  - intros E. injection E as <-. rewrite app_nil_r. eexists. reflexivity.
  - destruct (call_all _ cs (advance_train w) []) as [r|e]; cbn [bind]; [|discriminate]. destruct (logged cs k (S i) (fst r)) as [t|e] eqn:E; cbn [bind]; [|discriminate].
    intros E'. injection E' as <-. destruct (IH (S i) (fst r) (arr ++ [snd r]) t E) as [w' H]. exists w'. rewrite H, <- app_assoc. reflexivity.
Qed.
Lemma evaluate_loop_err cs steps : forall i w arr e, logged cs steps i w = Err e -> evaluate_loop cs None steps i w arr = Err e.
Proof.
  induction steps as [|k IH]; intros i w arr e; cbn [logged evaluate_loop]; [discriminate|].
  destruct (call_all _ cs (advance_train w) []) as [r|e']; cbn [bind]; [|congruence]. destruct (logged cs k (S i) (fst r)) as [t|e'] eqn:E; cbn [bind]; [discriminate|].
  intros E'. injection E' as ->. now apply IH.
Qed.
(** With progress bar keys that are always there the result is the same; otherwise KeyError. *)
Lemma evaluate_loop_keys cs keys steps : forall i w arr ls, logged cs steps i w = Ok ls ->
  (forall k l, In k keys -> In l (arr ++ ls) -> has k l) -> evaluate_loop cs (Some keys) steps i w arr = evaluate_loop cs None steps i w arr.
Proof.
  induction steps as [|n IH]; intros i w arr ls; cbn [logged evaluate_loop]; [reflexivity|].
  destruct (call_all _ cs (advance_train w) []) as [r|e]; cbn [bind]; [|discriminate]. destruct (logged cs n (S i) (fst r)) as [t|e] eqn:E; cbn [bind]; [|discriminate].
  intros E' H. injection E' as <-. rewrite mean_logs_keys_ok.
  - cbn [bind]. apply (IH _ _ _ t E). intros k l Hk Hl. apply (H k l Hk). rewrite <- app_assoc in Hl. exact Hl.
  - intros k l Hk Hl. apply (H k l Hk). apply in_app_iff. apply in_app_iff in Hl. destruct Hl as [Hl|[<-|[]]]; [now left|right; now left].
Qed.
Lemma evaluate_loop_keys_err cs keys steps : forall i w arr ls, logged cs steps i w = Ok ls ->
  (exists k l, In k keys /\ In l ls /\ ~ has k l) -> evaluate_loop cs (Some keys) steps i w arr = Err KeyError.
Proof.
  induction steps as [|n IH]; intros i w arr ls; cbn [logged evaluate_loop].
  - intros E (k & l & _ & Hl & _). injection E as <-. destruct Hl.
  - destruct (call_all _ cs (advance_train w) []) as [r|e]; cbn [bind]; [|discriminate]. destruct (logged cs n (S i) (fst r)) as [t|e] eqn:E; cbn [bind]; [|discriminate].
    intros E' (k & l & Hk & Hl & N). injection E' as <-.
    assert (D : (forall k' l', In k' keys -> In l' (arr ++ [snd r]) -> has k' l') \/ (exists k' l', In k' keys /\ In l' (arr ++ [snd r]) /\ ~ has k' l')).
    { clear - keys. induction keys as [|k' t IH]; [left; intros ? ? []|]. destruct (has_all_dec k' (arr ++ [snd r])) as [H|[l [Hl N]]].
      - destruct IH as [IH|(k2 & l2 & A & B & C)]; [left; intros k2 l2 [<-|A] B; auto|right; exists k2, l2; repeat split; auto; now right].
      - right. exists k', l. repeat split; auto. now left. }
    destruct D as [D|D]; [|rewrite (mean_logs_keys_err _ _ D); reflexivity].
    rewrite mean_logs_keys_ok by exact D. cbn [bind]. apply (IH _ _ _ t E). exists k, l. split; [exact Hk|]. split; [|exact N].
    destruct Hl as [<-|Hl]; [|exact Hl]. exfalso. apply N. apply (D k); [exact Hk|]. apply in_app_iff. right. now left.
Qed.
Lemma logged_length cs steps : forall i w ls, logged cs steps i w = Ok ls -> List.length ls = steps.
Proof.
  induction steps as [|n IH]; intros i w ls; cbn [logged]; [intros E; injection E as <-; reflexivity|].
  destruct (call_all _ cs (advance_train w) []) as [r|e]; cbn [bind]; [|discriminate]. destruct (logged cs n (S i) (fst r)) as [t|e] eqn:E; cbn [bind]; [|discriminate].
  intros E'. injection E' as <-. cbn [List.length]. f_equal. eapply IH; exact E.
Qed.

(** * Generators *)

Definition fetched (v : vmc) : nat := gen_fetched (served v).
(** After the next call there is a batch. *)
Definition ready (v : vmc) : Prop := 0 < gen_mini (served v) /\ (gen_idx (served v) = gen_batch_size (served v) \/ 0 < fetched v).
(** Every call fetches. *)
Definition whole (v : vmc) : Prop := 0 < gen_mini (served v) /\ gen_mini (served v) = gen_batch_size (served v) /\ gen_idx (served v) = gen_batch_size (served v).

Lemma fresh_cases B mini v : fresh B mini v ->
  let m := match mini with None => B | Some m => Nat.min m B end in
  0 < m /\ gen_batch_size (served v) = B /\ gen_mini (served v) = m /\ gen_idx (served v) = B /\ fetched v = 0.
Proof.
  unfold fresh, new_generator, set_batch_size, fetched. destruct mini as [m|]; cbn zeta.
  - destruct (Nat.ltb_spec B m).
    + destruct (Nat.eqb_spec B 0); [discriminate|]. intros E. injection E as <-. cbn. repeat split; lia.
    + destruct (Nat.eqb_spec m 0); [discriminate|]. intros E. injection E as <-. cbn. repeat split; lia.
  - rewrite Nat.ltb_irrefl. destruct (Nat.eqb_spec B 0); [discriminate|]. intros E. injection E as <-. cbn. repeat split; lia.
Qed.
Lemma fresh_ready B mini v : fresh B mini v -> ready v.
Proof. intros H. destruct (fresh_cases B mini v H) as (H1 & H2 & H3 & H4 & H5). split; [lia|left; congruence]. Qed.
Lemma fresh_whole B v : fresh B None v -> whole v.
Proof. intros H. destruct (fresh_cases B None v H) as (H1 & H2 & H3 & H4 & H5). repeat split; lia. Qed.
Lemma ready_next v : ready v -> ready (vmc_next v) /\ 0 < fetched (vmc_next v).
Proof.
  intros [M [H|H]]; unfold ready, fetched, vmc_next, next_mini_batch in *; cbn -[Nat.ltb] in *.
  - rewrite H. rewrite (proj2 (Nat.ltb_lt _ _)) by lia. cbn. lia.
  - destruct (_ <? _); cbn; lia.
Qed.
Lemma whole_next v : whole v -> whole (vmc_next v) /\ fetched (vmc_next v) = S (fetched v).
Proof.
  intros (M & H1 & H2). unfold whole, fetched, vmc_next, next_mini_batch in *. cbn -[Nat.ltb]. rewrite H1, H2. rewrite (proj2 (Nat.ltb_lt _ _)) by lia. cbn. repeat split; lia.
Qed.
Lemma whole_ready v : whole v -> ready v.
Proof. intros (M & H1 & H2). split; [exact M|now left]. Qed.
(** The attributes do not change. *)
Definition same_values (v v' : vmc) : Prop :=
  current_energy v' = current_energy v /\ current_local_energy_variance v' = current_local_energy_variance v /\ observable_value v' = observable_value v /\
  start_time v' = start_time v /\ sampling_end_time v' = sampling_end_time v /\ local_energy_end_time v' = local_energy_end_time v.
Lemma same_next v : same_values v (vmc_next v). Proof. repeat split. Qed.
Lemma same_refl v : same_values v v. Proof. repeat split. Qed.
Lemma same_trans a b c : same_values a b -> same_values b c -> same_values a c.
Proof. unfold same_values. intuition congruence. Qed.
Lemma attribute_ok {A} v (f : nat -> A) k : fetched v = S k -> attribute v f = Ok (f (S k)).
Proof. unfold attribute, fetched. now intros ->. Qed.

(** * The default callbacks without validation, in an evaluation *)

Definition relative_entry (prefix : string) (e0 : option R) (e : R) : logs :=
  match e0 with None => [] | Some x => [((prefix ++ "energy/relative_error")%string, ((x - e) / x)%R)] end.
Definition step_entries (e0 : option R) (g : vmc) (k : nat) (now : R) : logs :=
  [("energy/energy"%string, Re (current_energy g k)); ("energy/local_energy_variance"%string, Re (current_local_energy_variance g k))] ++
  relative_entry "" e0 (Re (current_energy g k)) ++
  [("observables/sigma_z"%string, Re (observable_value g "sigma_z" k)); ("observables/abs_sigma_z"%string, Re (observable_value g "abs_sigma_z" k));
   ("times/sampling"%string, (sampling_end_time g k - start_time g k)%R); ("times/local_energy"%string, (local_energy_end_time g k - sampling_end_time g k)%R);
   ("times/gradients"%string, (now - local_energy_end_time g k)%R); ("times/total"%string, (now - start_time g k)%R)].

Lemma both_default e0 ib p i w k : fetched (train w) = S k ->
  call_all (both i) (default_callbacks false e0 ib p) w [] = Ok (snd (read_clock w), step_entries e0 (train w) (S k) (clock w (reads w))).
Proof.
  intros F. destruct w as [[[a b c d e f] t1 t2 t3 t4 t5 t6] va ck rd st se]. cbn in F. subst f. destruct e0, ib; reflexivity.
Qed.

(** * The default callbacks with validation, at the end of an epoch *)

Definition train_entries (ib : bool) (prefix : string) (e0 : option R) (g : vmc) (k : nat) : logs :=
  if ib then [] else
  [((prefix ++ "energy/energy")%string, Re (current_energy g k)); ((prefix ++ "energy/local_energy_variance")%string, Re (current_local_energy_variance g k))] ++
  relative_entry prefix e0 (Re (current_energy g k)).
Definition observable_entry (ib : bool) (prefix name : string) (g : vmc) (k : nat) : logs :=
  if ib then [] else [((prefix ++ "observables/" ++ name)%string, Re (observable_value g name k))].
Definition time_entries (ib : bool) (g : vmc) (k : nat) (now : R) : logs :=
  if ib then [] else
  [("times/sampling"%string, (sampling_end_time g k - start_time g k)%R); ("times/local_energy"%string, (local_energy_end_time g k - sampling_end_time g k)%R);
   ("times/gradients"%string, (now - local_energy_end_time g k)%R); ("times/total"%string, (now - start_time g k)%R)].
Definition epoch_entries (ib hit : bool) (e0 : option R) (g : vmc) (k : nat) (v : vmc) (j : nat) (now : R) : logs :=
  train_entries ib "" e0 g k ++ train_entries (negb hit) "val_" e0 v j ++
  observable_entry ib "" "sigma_z" g k ++ observable_entry (negb hit) "val_" "sigma_z" v j ++
  observable_entry ib "" "abs_sigma_z" g k ++ observable_entry (negb hit) "val_" "abs_sigma_z" v j ++ time_entries ib g k now.
Definition clocked (ib : bool) (w : world) : world := if ib then w else snd (read_clock w).

Lemma epoch_default e0 ib p e w k : 0 < p -> fetched (train w) = S k -> (e mod p = 0 -> 0 < fetched (vmc_next (val w))) ->
  let w1 := if e mod p =? 0 then advance_val w else w in
  call_all (fun c => on_epoch_end c e) (default_callbacks true e0 ib p) w [] =
  Ok (clocked ib w1, epoch_entries ib (e mod p =? 0) e0 (train w) (S k) (val w1) (fetched (val w1)) (clock w (reads w))).
Proof.
  intros P F V w1. unfold w1. clear w1.
  assert (D : divides p e = Ok (e mod p =? 0)) by (unfold divides; now rewrite (proj2 (Nat.eqb_neq p 0)) by lia).
  unfold default_callbacks. cbn [app call_all on_epoch_end is_validation_epoch]. rewrite D. clear D. destruct (Nat.eqb_spec (e mod p) 0) as [H|H].
  - specialize (V H). destruct w as [g va ck rd st se]. destruct g as [[a b c d f n] t1 t2 t3 t4 t5 t6]. cbn [train fetched served gen_fetched] in F. subst n.
    unfold advance_val. cbn [train val] in *. set (v := vmc_next va) in *. clearbody v. destruct v as [[a' b' c' d' f' n'] u1 u2 u3 u4 u5 u6].
    cbn [fetched served gen_fetched] in V. destruct n' as [|n']; [lia|]. destruct e0, ib; reflexivity.
  - destruct w as [g va ck rd st se]. destruct g as [[a b c d f n] t1 t2 t3 t4 t5 t6]. cbn in F. subst n. destruct e0, ib; reflexivity.
Qed.
Lemma batch_default e0 ib p b w k : fetched (train w) = S k ->
  exists l, call_all (fun c => on_batch_end c b) (default_callbacks true e0 ib p) w [] = Ok (clocked (negb ib) w, l).
Proof.
  intros F. destruct w as [[[a b0 c d e f] t1 t2 t3 t4 t5 t6] va ck rd st se]. cbn in F. subst f. destruct e0, ib; eexists; reflexivity.
Qed.

Lemma lookup_prefix_none p key (l : logs) : Forall (fun kv => String.prefix p (fst kv) = false) l -> String.prefix p key = true -> lookup key l = None.
Proof.
  induction l as [|[k v] t IH]; intros F P; [reflexivity|]. inversion F; subst. cbn [lookup]. destruct (String.eqb_spec k key) as [->|N]; [cbn [fst] in *; congruence|auto].
Qed.
Lemma epoch_entries_no_val ib e0 g k v j now key : String.prefix "val_" key = true -> lookup key (epoch_entries ib false e0 g k v j now) = None.
Proof. intros P. apply (lookup_prefix_none "val_"); [|exact P]. destruct e0, ib; repeat (constructor; [reflexivity|]); constructor. Qed.
Lemma epoch_entries_val ib e0 g k v j now :
  let l := epoch_entries ib true e0 g k v j now in
  lookup "val_energy/energy" l = Some (Re (current_energy v j)) /\
  lookup "val_energy/local_energy_variance" l = Some (Re (current_local_energy_variance v j)) /\
  lookup "val_energy/relative_error" l = option_map (fun x => (x - Re (current_energy v j)) / x)%R e0 /\
  lookup "val_observables/sigma_z" l = Some (Re (observable_value v "sigma_z" j)) /\
  lookup "val_observables/abs_sigma_z" l = Some (Re (observable_value v "abs_sigma_z" j)).
Proof. destruct e0, ib; cbn; repeat split. Qed.

Lemma train_batches_default e0 ib p steps : forall b w, ready (train w) -> 0 < steps \/ 0 < fetched (train w) ->
  exists w1, train_batches (default_callbacks true e0 ib p) steps b w = Ok w1 /\ val w1 = val w /\ stop_training w1 = stop_training w /\
    ready (train w1) /\ 0 < fetched (train w1).
Proof.
  induction steps as [|n IH]; intros b w Rd H.
  - exists w. cbn [train_batches]. repeat split; auto; try apply Rd. lia.
  - cbn [train_batches]. destruct (ready_next _ Rd) as [R1 F1]. destruct (fetched (vmc_next (train w))) as [|k] eqn:E; [lia|].
    destruct (batch_default e0 ib p b (advance_train w) k E) as [l Hl]. rewrite Hl. cbn [bind fst].
    destruct (IH (S b) (clocked (negb ib) (advance_train w))) as (w1 & A & B & C & D & F).
    + destruct ib; exact R1.
    + right. replace (train (clocked (negb ib) (advance_train w))) with (vmc_next (train w)) by (destruct ib; reflexivity). lia.
    + exists w1. split; [exact A|]. rewrite B, C. split; [now destruct ib|]. split; [now destruct ib|]. split; assumption.
Qed.

Lemma validations_S p e n : validations p e (S n) = (if e mod p =? 0 then 1 else 0) + validations p (S e) n.
Proof. unfold validations. cbn [seq filter]. destruct (_ =? 0); reflexivity. Qed.

(** One entry of the logs of an epoch: fresh validation statistics at the multiples of the period, otherwise none. *)
Definition validation_logs (p : nat) (e0 : option R) (v : vmc) (epoch count : nat) (l : logs) : Prop :=
  (epoch mod p = 0 ->
     lookup "val_energy/energy" l = Some (Re (current_energy v count)) /\
     lookup "val_energy/local_energy_variance" l = Some (Re (current_local_energy_variance v count)) /\
     lookup "val_energy/relative_error" l = option_map (fun x => (x - Re (current_energy v count)) / x)%R e0 /\
     lookup "val_observables/sigma_z" l = Some (Re (observable_value v "sigma_z" count)) /\
     lookup "val_observables/abs_sigma_z" l = Some (Re (observable_value v "abs_sigma_z" count))) /\
  (epoch mod p <> 0 -> forall key, String.prefix "val_" key = true -> lookup key l = None).

Lemma fit_default e0 ib p steps : 0 < p -> 0 < steps -> forall n e w, stop_training w = false -> ready (train w) -> whole (val w) ->
  exists w' ls, fit_generator (default_callbacks true e0 ib p) steps n e w = Ok (w', ls) /\ List.length ls = n /\
    fetched (val w') = fetched (val w) + validations p e n /\
    (forall j, j < n -> validation_logs p e0 (val w) (e + j) (fetched (val w) + validations p e (S j)) (nth j ls [])).
Proof.
  intros P St. induction n as [|n IH]; intros e w NS Rd Wh.
  - exists w, []. cbn. repeat split; try lia.
  - cbn [fit_generator]. rewrite NS. destruct (train_batches_default e0 ib p steps 0 w Rd (or_introl St)) as (w1 & A & B & C & D & F). rewrite A. cbn [bind].
    destruct (fetched (train w1)) as [|k] eqn:E; [lia|]. destruct (whole_next _ Wh) as [W1 W2].
    rewrite (epoch_default e0 ib p e w1 k P E) by (intros _; rewrite B, W2; lia). cbn [bind fst snd].
    set (w2 := if e mod p =? 0 then advance_val w1 else w1).
    assert (V2 : val (clocked ib w2) = val w2) by (now destruct ib).
    assert (V3 : val w2 = if e mod p =? 0 then vmc_next (val w) else val w) by (unfold w2; destruct (_ =? 0); cbn; now rewrite B).
    assert (FV : fetched (val w2) = fetched (val w) + validations p e 1).
    { rewrite V3, validations_S. destruct (_ =? 0); [rewrite W2|]; cbn; lia. }
    destruct (IH (S e) (clocked ib w2)) as (w' & ls & G1 & G2 & G3 & G4).
    + unfold w2. destruct (_ =? 0), ib; cbn; congruence.
    + replace (train (clocked ib w2)) with (train w1) by (unfold w2; destruct (_ =? 0), ib; reflexivity). exact D.
    + rewrite V2, V3. destruct (_ =? 0); [exact W1|exact Wh].
    + rewrite G1. cbn [bind fst snd]. eexists w', _. split; [reflexivity|]. split; [cbn [List.length]; now rewrite G2|].
      assert (SP : forall m, validations p e (S m) = validations p e 1 + validations p (S e) m).
      { intros m. rewrite !validations_S. cbn. lia. }
      rewrite V2, FV in G3. split; [rewrite SP; lia|]. intros [|j] Hj.
      * cbn [nth]. rewrite Nat.add_0_r, <- FV. unfold validation_logs. split.
        -- intros H. rewrite V3. rewrite H. cbn [Nat.eqb]. exact (epoch_entries_val ib e0 (train w1) (S k) (vmc_next (val w)) (fetched (vmc_next (val w))) (clock w1 (reads w1))).
        -- intros H key K. rewrite (proj2 (Nat.eqb_neq _ _)) by exact H. now apply epoch_entries_no_val.
      * cbn [nth]. specialize (G4 j ltac:(lia)). rewrite V2, FV in G4. replace (e + S j) with (S e + j) by lia. rewrite SP.
        replace (fetched (val w) + (validations p e 1 + validations p (S e) (S j))) with (fetched (val w) + validations p e 1 + validations p (S e) (S j)) by lia.
        unfold validation_logs in *. rewrite V3 in G4. destruct (e mod p =? 0); exact G4.
Qed.

(** * The default callbacks with validation, in an evaluation *)

Lemma both_default_entries e0 ib p i w k : 0 < p -> fetched (train w) = S k -> (i mod p = 0 -> 0 < fetched (vmc_next (val w))) ->
  let w1 := if i mod p =? 0 then advance_val w else w in
  call_all (both i) (default_callbacks true e0 ib p) w [] =
  Ok (clocked false w1, epoch_entries false (i mod p =? 0) e0 (train w) (S k) (val w1) (fetched (val w1)) (clock w (reads w))).
Proof.
  intros P F V w1. unfold w1. clear w1.
  assert (D : divides p i = Ok (i mod p =? 0)) by (unfold divides; now rewrite (proj2 (Nat.eqb_neq p 0)) by lia).
  unfold default_callbacks, both. cbn [app call_all on_epoch_end on_batch_end is_validation_epoch]. rewrite D. clear D. destruct (Nat.eqb_spec (i mod p) 0) as [H|H].
  - specialize (V H). destruct w as [g va ck rd st se]. destruct g as [[a b c d f n] t1 t2 t3 t4 t5 t6]. cbn [train fetched served gen_fetched] in F. subst n.
    unfold advance_val. cbn [bind fst snd train val] in *. set (v := vmc_next va) in *. clearbody v. destruct v as [[a' b' c' d' f' n'] u1 u2 u3 u4 u5 u6].
    cbn [fetched served gen_fetched] in V. destruct n' as [|n']; [lia|]. destruct e0, ib; reflexivity.
  - destruct w as [g va ck rd st se]. destruct g as [[a b c d f n] t1 t2 t3 t4 t5 t6]. cbn in F. subst n. destruct e0, ib; reflexivity.
Qed.
Lemma both_default_validation e0 ib p i w k : 0 < p -> fetched (train w) = S k -> (i mod p = 0 -> 0 < fetched (vmc_next (val w))) ->
  exists w' l, call_all (both i) (default_callbacks true e0 ib p) w [] = Ok (w', l) /\ train w' = train w /\
    val w' = (if i mod p =? 0 then vmc_next (val w) else val w) /\ (has "val_energy/energy" l <-> i mod p = 0).
Proof.
  intros P F V. eexists. eexists. split; [apply (both_default_entries e0 ib p i w k P F V)|]. split; [destruct (_ =? 0); reflexivity|]. split; [destruct (_ =? 0); reflexivity|].
  destruct (Nat.eqb_spec (i mod p) 0) as [H|H]; (split; [intros [x Hx]|intros Hx]); try assumption; try contradiction.
  - unfold has. eexists. apply (epoch_entries_val false e0 _ _ _ _ _).
  - rewrite epoch_entries_no_val in Hx; [discriminate|reflexivity].
Qed.
Lemma logged_validation e0 ib p steps : 0 < p -> forall i w, ready (train w) -> ready (val w) -> i = 0 \/ 0 < fetched (val w) ->
  exists ls, logged (default_callbacks true e0 ib p) steps i w = Ok ls /\ (forall j, j < steps -> has "val_energy/energy" (nth j ls []) <-> (i + j) mod p = 0).
Proof.
  intros P. induction steps as [|n IH]; intros i w R1 R2 H.
  - exists []. split; [reflexivity|]. intros j Hj. lia.
  - cbn [logged]. destruct (ready_next _ R1) as [R1' F1]. destruct (ready_next _ R2) as [R2' F2]. destruct (fetched (vmc_next (train w))) as [|k] eqn:E; [lia|].
    destruct (both_default_validation e0 ib p i (advance_train w) k P E (fun _ => F2)) as (w' & l & A & B & C & D). rewrite A. cbn [bind fst snd].
    destruct (IH (S i) w') as (ls & G1 & G2).
    + rewrite B. exact R1'.
    + rewrite C. cbn [advance_train val]. destruct (_ =? 0); assumption.
    + right. rewrite C. cbn [advance_train val]. destruct (Nat.eqb_spec (i mod p) 0) as [Z|Z]; [exact F2|]. destruct H as [->|H]; [|exact H]. rewrite Nat.mod_0_l in Z by lia. lia.
    + rewrite G1. cbn [bind]. eexists. split; [reflexivity|]. intros [|j] Hj; cbn [nth]; [now rewrite Nat.add_0_r|]. rewrite G2 by lia. replace (S i + j) with (i + S j) by lia. tauto.
Qed.

(** * The default callbacks without validation over a whole evaluation *)

Fixpoint nexts (v : vmc) (n : nat) : vmc := match n with O => v | S k => nexts (vmc_next v) k end.
Lemma nexts_S v n : nexts v (S n) = vmc_next (nexts v n).
Proof. revert v. induction n as [|n IH]; intros v; [reflexivity|]. cbn [nexts] in *. now rewrite IH. Qed.
Lemma logged_default e0 ib p steps : forall i w, ready (train w) ->
  logged (default_callbacks false e0 ib p) steps i w =
  Ok (map (fun j => step_entries e0 (train w) (fetched (nexts (train w) (S j))) (clock w (reads w + j))) (seq 0 steps)).
Proof.
  induction steps as [|n IH]; intros i w Rd; [reflexivity|]. cbn [logged]. destruct (ready_next _ Rd) as [R1 F1].
  destruct (fetched (vmc_next (train w))) as [|k] eqn:E; [lia|]. rewrite (both_default e0 ib p i (advance_train w) k E). cbn [bind fst snd].
  rewrite IH by exact R1. cbn [bind seq map]. f_equal. apply f_equal2.
  - cbn [nexts]. rewrite E, Nat.add_0_r. reflexivity.
  - rewrite <- seq_shift, map_map. apply map_ext. intros j. cbn [nexts read_clock snd advance_train train clock reads]. rewrite Nat.add_succ_comm. reflexivity.
Qed.

Lemma nexts_whole v n : whole v -> fetched (nexts v n) = fetched v + n.
Proof.
  revert v. induction n as [|n IH]; intros v W; cbn [nexts]; [lia|]. destruct (whole_next v W) as [W1 W2]. rewrite IH, W2 by exact W1. lia.
Qed.
(** With mini batches every batch is seen B / m times. *)
Lemma nexts_mini v m q n : 0 < m -> 0 < q -> gen_mini (served v) = m -> gen_batch_size (served v) = m * q -> gen_idx (served v) = m * q -> fetched v = 0 ->
  gen_mini (served (nexts v n)) = m /\ gen_batch_size (served (nexts v n)) = m * q /\
  fetched (nexts v n) = (n + q - 1) / q /\ gen_idx (served (nexts v n)) = m * (if n =? 0 then q else (n - 1) mod q + 1).
Proof.
  intros Hm Hq M B I F. induction n as [|n IH].
  - cbn [nexts Nat.eqb]. rewrite Nat.div_small by lia. repeat split; assumption.
  - rewrite nexts_S. destruct IH as (A1 & A2 & A3 & A4). set (u := nexts v n) in *. clearbody u.
    unfold fetched, vmc_next, next_mini_batch in *. cbn -[Nat.ltb Nat.div Nat.modulo]. rewrite A1, A2, A3, A4. rewrite !Nat.sub_0_r.
    split; [reflexivity|]. split; [reflexivity|].
    assert (T : (m * q <? m * (if n =? 0 then q else (n - 1) mod q + 1) + m) = (n mod q =? 0)).
    { destruct n as [|n]; [cbn [Nat.eqb]; rewrite Nat.mod_0_l by lia; apply Nat.ltb_lt; lia|]. cbn [Nat.eqb]. replace (S n - 1) with n by lia.
      pose proof (Nat.mod_upper_bound n q ltac:(lia)) as U. pose proof (Nat.div_mod n q ltac:(lia)) as DM.
      destruct (Nat.eq_dec (n mod q + 1) q) as [Eq|Ne].
      - rewrite Eq. rewrite (proj2 (Nat.ltb_lt _ _)) by lia. symmetry. apply Nat.eqb_eq. replace (S n) with ((n / q + 1) * q) by nia. apply Nat.mod_mul. lia.
      - assert (Sm : S n mod q = n mod q + 1). { symmetry. apply (Nat.mod_unique (S n) q (n / q)); lia. }
        rewrite Sm. rewrite (proj2 (Nat.eqb_neq _ _)) by lia. apply Nat.ltb_ge. nia. }
    rewrite T. pose proof (Nat.mod_upper_bound n q ltac:(lia)) as U. pose proof (Nat.div_mod n q ltac:(lia)) as DM.
    destruct (Nat.eqb_spec (n mod q) 0) as [Z|Z].
    + rewrite Z. split; [|lia].
      replace ((n + q - 1) / q) with (n / q). 2:{ apply (Nat.div_unique _ _ _ (q - 1)); lia. }
      apply (Nat.div_unique _ _ _ 0); lia.
    + split.
      * replace ((n + q - 1) / q) with (n / q + 1). 2:{ apply (Nat.div_unique _ _ _ (n mod q - 1)); lia. }
        apply (Nat.div_unique _ _ _ (n mod q)); lia.
      * destruct n as [|n]; [rewrite Nat.mod_0_l in Z; lia|]. cbn [Nat.eqb]. replace (S n - 1) with n by lia.
        pose proof (Nat.mod_upper_bound n q ltac:(lia)) as U'. pose proof (Nat.div_mod n q ltac:(lia)) as DM'.
        destruct (Nat.eq_dec (n mod q + 1) q) as [Eq|Ne].
        -- exfalso. apply Z. replace (S n) with ((n / q + 1) * q) by nia. apply Nat.mod_mul. lia.
        -- assert (Sm : S n mod q = n mod q + 1) by (symmetry; apply (Nat.mod_unique (S n) q (n / q)); lia). rewrite Sm. lia.
Qed.
