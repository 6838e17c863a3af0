(** The Hamiltonian sampler with wrapped NetKet operators. *)
From Coq Require Import List ZArith Reals Bool Arith Lia Lra Permutation.
From Verif Require Import Base Cplx LatticeSpec IsingProofs AutoregressiveSpec ObservableModel ObservableSpec ObservableProofs ExactModel ExactSpec ExactProofs
  NetketModel NetketProofs MetropolisModel MetropolisSpec MetropolisProofs MetropolisOperatorProofs J1J2OperatorModel J1J2OperatorProofs
  NetketSamplerModel NetketSamplerSpec.
Import ListNotations.
Local Open Scope nat_scope.

Lemma nonzero_is_zero c : nonzero c = negb (is_zero c).
Proof. unfold nonzero, is_zero, Re, Im. destruct (Req_EM_T (fst c) 0); [|reflexivity]. destruct (Req_EM_T (snd c) 0); reflexivity. Qed.
Lemma nonzero_spec c : nonzero c = true <-> c <> C0.
Proof.
  rewrite nonzero_is_zero. pose proof (is_zero_spec c) as E. destruct (is_zero c); cbn [negb]; intuition congruence.
Qed.

Lemma select_map {A B} (f : A -> bool) (h : A -> B) l : select (map f l) (map h l) = map h (filter f l).
Proof. induction l as [|a l IH]; [reflexivity|]. cbn [map select filter]. destruct (f a); cbn [map]; now rewrite IH. Qed.
Lemma select_app {A} m1 m2 (l1 l2 : list A) : length m1 = length l1 -> select (m1 ++ m2) (l1 ++ l2) = select m1 l1 ++ select m2 l2.
Proof.
  revert l1. induction m1 as [|b m1 IH]; intros [|a l1] E; cbn [length] in E; try discriminate; [reflexivity|].
  injection E as E. cbn [app select]. rewrite (IH l1 E). destruct b; reflexivity.
Qed.
Lemma select_none {A} k (l : list A) : select (repeat false k) l = [].
Proof. revert l. induction k as [|k IH]; intros [|a l]; cbn [repeat select]; auto. Qed.

Lemma column_at {A} i (d : A) rows : at_sample i d rows = column i d rows.
Proof. reflexivity. Qed.

(** What the wrapper reports as used, with and without the test for zeros. *)
Definition all_moves (g : get_conn_fun) (e : nat) (s : list Z) : list (list Z) := map fst (g s) ++ repeat (repeat 0%Z (length s)) (e - length (g s)).

Lemma wrapper_used g W samples : good_batch g samples ->
  exists W' c, new_netket_find_conn g W samples = Ok (W', (conns c, mels c, uses c)) /\ should_calc_unused W' = should_calc_unused W /\
    estimated W <= estimated W' /\ (forall e, estimated W <= e -> (forall s, In s samples -> length (g s) <= e) -> estimated W' <= e) /\
    forall i s, nth_error samples i = Some s ->
      used_connections c i = (if should_calc_unused W then moves g s else all_moves g (estimated W') s) /\
      count_true (at_sample i false (uses c)) = length (used_connections c i).
Proof.
  intros GB. destruct (netket_step g W samples GB) as (W' & conn & mel & use & E & Le & HU & Lc & Lm & Lu & Q).
  destruct (netket_arrays g W samples W' conn mel use GB E) as (_ & _ & _ & R4 & _).
  exists W', {| conns := conn; mels := mel; uses := use |}. cbn [conns mels uses]. split; [exact E|]. split; [exact HU|]. split; [exact Le|].
  split; [intros e He Hs; now apply R4|].
  intros i s Hi. destruct (Q i s Hi) as (Q1 & Q2 & Q3 & Q4). unfold used_connections. cbn [conns uses]. rewrite (column_at i false use), (column_at i [] conn).
  split; [|apply count_select; unfold column; rewrite !map_length; lia].
  rewrite Q2. assert (Lcol : length (column i false use) = estimated W') by (unfold column; rewrite map_length; exact Lu).
  destruct GB as [_ GB]. destruct (GB s (nth_error_In _ _ Hi)) as (m & rest & Eg).
  destruct (should_calc_unused W) eqn:SU.
  - assert (EM : column i false use = true :: map (fun cm => nonzero (snd cm)) rest ++ repeat false (estimated W' - length (g s))).
    { rewrite Eg in *. cbn [length] in *. apply (nth_ext _ _ false false).
      - rewrite Lcol. cbn [length]. rewrite app_length, map_length, repeat_length. lia.
      - intros k Hk. rewrite Lcol in Hk. specialize (Q4 k Hk). rewrite Q3 in Q4. destruct k as [|k].
        { cbn [nth]. apply Q4. now left. }
        cbn [nth]. cbn [map snd app nth] in Q4.
        assert (Ek : nth k (map (fun cm => nonzero (snd cm)) rest ++ repeat false (estimated W' - S (length rest))) false =
                     nonzero (nth k (map snd rest ++ repeat C0 (estimated W' - S (length rest))) C0)).
        { destruct (Nat.lt_ge_cases k (length rest)) as [L|L].
          - rewrite !app_nth1 by now rewrite map_length. rewrite (nth_map_in _ _ _ _ ([], C0)) by exact L. rewrite (nth_map_in _ _ _ _ ([], C0)) by exact L. reflexivity.
          - rewrite !app_nth2 by (rewrite map_length; lia). rewrite !nth_repeat. symmetry. apply not_true_is_false. intros T. now apply nonzero_spec in T. }
        rewrite Ek. apply eq_true_iff_eq. rewrite Q4, nonzero_spec. intuition discriminate. }
    rewrite EM, Eg. cbn [map fst app select]. rewrite select_app by now rewrite !map_length. rewrite select_none, app_nil_r, select_map.
    unfold moves. rewrite Eg. reflexivity.
  - assert (EM : column i false use = repeat true (estimated W')).
    { apply (nth_ext _ _ false false); [now rewrite repeat_length|]. intros k Hk. rewrite Lcol in Hk. rewrite (nth_repeat_lt _ _ _ _ Hk). apply Q4; [exact Hk|]. right. now left. }
    rewrite EM. unfold all_moves.
    replace (estimated W') with (length (map fst (g s) ++ repeat (repeat 0%Z (length s)) (estimated W' - length (g s)))) at 1; [apply select_all|].
    rewrite app_length, map_length, repeat_length. lia.
Qed.

Lemma wrapper_find_conn g W d samples W' c : new_netket_find_conn g W samples = Ok (W', (conns c, mels c, uses c)) ->
  find_conn (netket_operator g W d) samples = Ok c.
Proof. intros E. cbn [find_conn netket_operator]. rewrite E. cbn [bind snd]. destruct c. reflexivity. Qed.

(** ** Symmetric connectivity *)
Lemma tl_in {A} (x : A) l : In x (tl l) -> In x l.
Proof. destruct l; [intros []|]. cbn. auto. Qed.
Lemma moves_configs n g s t : connects_configurations n g -> In s (spin_configs n) -> In t (moves g s) -> In t (spin_configs n).
Proof.
  intros CC Hs [<-|I]; [exact Hs|]. apply in_map_iff in I. destruct I as ([c m] & <- & I). apply filter_In in I. destruct I as [I _].
  apply tl_in in I. exact (proj2 (CC s Hs) c m I).
Qed.
Lemma configs_good_batch n g samples : connects_configurations n g -> samples <> [] -> (forall s, In s samples -> In s (spin_configs n)) -> good_batch g samples.
Proof. intros CC NE H. split; [exact NE|]. intros s Hs. apply CC. now apply H. Qed.

Lemma wrapper_connectivity n g W d : should_calc_unused W = true -> connects_configurations n g ->
  (forall s t, In s (spin_configs n) -> In t (spin_configs n) -> s <> t -> occurrences t (moves g s) = occurrences s (moves g t)) ->
  symmetric_connectivity n (netket_operator g W d) (moves g).
Proof.
  intros SU CC HS. split; [|split].
  - intros samples NE Hs. destruct (wrapper_used g W samples (configs_good_batch n g samples CC NE Hs)) as (W' & c & E & _ & _ & _ & U).
    exists c. split; [now apply (wrapper_find_conn g W d samples W')|]. intros i s Hi. destruct (U i s Hi) as [U1 U2]. rewrite SU in U1. now rewrite U2, U1.
  - intros s Hs. split; [discriminate|]. intros t. now apply moves_configs.
  - intros s t Hs Ht. destruct (list_eq_dec Z.eq_dec s t) as [->|N]; [reflexivity|now apply HS].
Qed.

Lemma same_count_connectivity n g W d : connects_configurations n g -> should_calc_unused W = false ->
  (forall s, In s (spin_configs n) -> length (g s) = estimated W) ->
  (forall s t, In s (spin_configs n) -> In t (spin_configs n) -> s <> t -> occurrences t (map fst (g s)) = occurrences s (map fst (g t))) ->
  symmetric_connectivity n (netket_operator g W d) (fun s => map fst (g s)).
Proof.
  intros CC SU HL HS. split; [|split].
  - intros samples NE Hs. destruct (wrapper_used g W samples (configs_good_batch n g samples CC NE Hs)) as (W' & c & E & _ & Le & Lu & U).
    exists c. split; [now apply (wrapper_find_conn g W d samples W')|]. intros i s Hi. destruct (U i s Hi) as [U1 U2]. rewrite SU in U1. rewrite U2, U1.
    assert (EW : estimated W' = estimated W).
    { apply Nat.le_antisymm; [|exact Le]. apply Lu; [lia|]. intros x Hx. rewrite HL; auto. }
    unfold all_moves. rewrite EW, (HL s) by (apply Hs; eapply nth_error_In; eauto). rewrite Nat.sub_diag. cbn [repeat]. rewrite app_nil_r. auto.
  - intros s Hs. split.
    + destruct (proj1 (CC s Hs)) as (m & rest & ->). discriminate.
    + intros t It. apply in_map_iff in It. destruct It as ([c m] & <- & I). exact (proj2 (CC s Hs) c m I).
  - intros s t Hs Ht. destruct (list_eq_dec Z.eq_dec s t) as [->|N]; [reflexivity|now apply HS].
Qed.

Lemma occurrences_nodup t l : NoDup l -> occurrences t l = if in_dec (list_eq_dec Z.eq_dec) t l then 1 else 0.
Proof.
  intros N. unfold occurrences. destruct (in_dec (list_eq_dec Z.eq_dec) t l) as [I|I].
  - rewrite (NoDup_count_occ' (list_eq_dec Z.eq_dec)) in N. now apply N.
  - now apply count_occ_not_In.
Qed.
Lemma NoDup_map_filter {A B} (f : A -> bool) (h : A -> B) l : NoDup (map h l) -> NoDup (map h (filter f l)).
Proof.
  induction l as [|a l IH]; cbn [map filter]; [auto|]. intros N. inversion N as [|x y N1 N2]; subst.
  destruct (f a); [|now apply IH]. cbn [map]. constructor; [|now apply IH]. intros I. apply N1. apply in_map_iff in I. destruct I as (b & Eb & I).
  apply filter_In in I. apply in_map_iff. exists b. split; [exact Eb|apply I].
Qed.

Lemma moves_in n g s t : connects_configurations n g -> In s (spin_configs n) -> s <> t ->
  (In t (moves g s) <-> exists m, In (t, m) (g s) /\ m <> C0).
Proof.
  intros CC Hs N. unfold moves. destruct (proj1 (CC s Hs)) as (m0 & rest & ->). cbn [tl In]. split.
  - intros [E|I]; [congruence|]. apply in_map_iff in I. destruct I as ([c m] & Ec & I). cbn [fst] in Ec. subst c. apply filter_In in I. destruct I as [I Hm].
    exists m. split; [now right|]. now apply nonzero_spec.
  - intros (m & [E|I] & Hm); [congruence|]. right. apply in_map_iff. exists (t, m). split; [reflexivity|]. apply filter_In. split; [exact I|]. now apply nonzero_spec.
Qed.

Lemma hermitian_moves n g : connects_configurations n g -> (forall s, In s (spin_configs n) -> NoDup (map fst (g s))) -> hermitian_connections n g ->
  forall s t, In s (spin_configs n) -> In t (spin_configs n) -> s <> t -> occurrences t (moves g s) = occurrences s (moves g t).
Proof.
  intros CC ND HH s t Hs Ht N.
  assert (NM : forall x, In x (spin_configs n) -> NoDup (moves g x)).
  { intros x Hx. specialize (ND x Hx). unfold moves. destruct (proj1 (CC x Hx)) as (m & rest & E). rewrite E in *. cbn [map fst tl] in *.
    inversion ND as [|a l N1 N2]; subst. constructor; [|now apply NoDup_map_filter]. intros I. apply N1. apply in_map_iff in I. destruct I as (b & Eb & I).
    apply filter_In in I. apply in_map_iff. exists b. split; [exact Eb|apply I]. }
  assert (Dir : forall x y, In x (spin_configs n) -> In y (spin_configs n) -> x <> y -> In y (moves g x) -> In x (moves g y)).
  { intros x y Hx Hy Nxy I. apply (moves_in n g x y CC Hx Nxy) in I. destruct I as (m & I & Hm). apply (moves_in n g y x CC Hy (not_eq_sym Nxy)).
    assert (Hc : Cconj m <> C0). { intros E. apply Hm. destruct m as [a b]. unfold Cconj, C0, RtoC, Re, Im in *. cbn [fst snd] in E. injection E as Ea Eb. f_equal; lra. }
    destruct (HH x y m Hx Hy (or_introl I)) as [J|[E _]]; [|congruence]. now exists (Cconj m). }
  rewrite !occurrences_nodup by auto.
  destruct (in_dec (list_eq_dec Z.eq_dec) t (moves g s)) as [I|I], (in_dec (list_eq_dec Z.eq_dec) s (moves g t)) as [J|J]; auto; exfalso; auto.
Qed.

(** ** The wrapper's memory does not matter *)
Lemma candidates_loop_ext c c' : forall ds i, (forall k, i <= k < i + length ds -> used_connections c k = used_connections c' k) ->
  candidates_loop c i ds = candidates_loop c' i ds.
Proof.
  induction ds as [|d ds IH]; intros i H; [reflexivity|]. cbn [candidates_loop length] in *. unfold hamiltonian_candidate. rewrite (H i) by lia.
  rewrite (IH (S i)); [reflexivity|]. intros k Hk. apply H. lia.
Qed.
Lemma candidates_loop_in c (Q : list Z -> Prop) : forall ds i cs, candidates_loop c i ds = Ok cs ->
  (forall k x, i <= k < i + length ds -> In x (used_connections c k) -> Q x) -> length cs = length ds /\ forall x, In x cs -> Q x.
Proof.
  induction ds as [|d ds IH]; intros i cs E H; cbn [candidates_loop length] in *.
  - injection E as <-. split; [reflexivity|intros x []].
  - destruct (hamiltonian_candidate c i d) as [s|e] eqn:Es; [|discriminate]. cbn [bind] in E.
    destruct (candidates_loop c (S i) ds) as [r|e] eqn:Er; [|discriminate]. cbn [bind] in E. injection E as <-.
    destruct (IH (S i) r Er) as [L Q']; [intros k x Hk; apply H; lia|]. cbn [length]. split; [now rewrite L|]. intros x [<-|I]; [|now apply Q'].
    apply (H i); [lia|]. unfold hamiltonian_candidate in Es. destruct (used_connections c i) as [|a l] eqn:Eu; [discriminate|].
    destruct (nth_error (a :: l) d) as [y|] eqn:En; [|discriminate]. injection Es as <-. eapply nth_error_In; eauto.
Qed.
Lemma masked_in {A} (Q : A -> Prop) : forall mask new old, (forall x, In x new -> Q x) -> (forall x, In x old -> Q x) -> forall x, In x (masked_assign mask new old) -> Q x.
Proof.
  induction mask as [|m mask IH]; intros [|a new] [|b old] Hn Ho x I; cbn [masked_assign] in I; auto.
  destruct I as [<-|I]; [destruct m; [apply Hn|apply Ho]; now left|].
  apply (IH new old) in I; auto; intros y Hy; [apply Hn|apply Ho]; now right.
Qed.
Lemma masked_length {A} : forall mask (new old : list A), length (masked_assign mask new old) = length old.
Proof. induction mask as [|m mask IH]; intros [|a new] [|b old]; cbn [masked_assign length]; auto. Qed.

Definition chains_of (n k : nat) (st : chains) : Prop := length (sample st) = k /\ forall s, In s (sample st) -> In s (spin_configs n).

Lemma netket_sweep_same n k g lp input W W0 d st : connects_configurations n g -> should_calc_unused W = true -> should_calc_unused W0 = true ->
  0 < k -> chains_of n k st -> length (fst input) = k ->
  (exists W' r, netket_sweep g lp input W st = Ok (W', r) /\ hamiltonian_sweep (netket_operator g W0 d) lp input st = Ok r /\
     should_calc_unused W' = true /\ chains_of n k (fst r)) \/
  (exists e, netket_sweep g lp input W st = Err e /\ hamiltonian_sweep (netket_operator g W0 d) lp input st = Err e).
Proof.
  intros CC SW SW0 Hk [Lk Hs] Li.
  assert (NE : sample st <> []) by (intros E; rewrite E in Lk; cbn in Lk; lia).
  pose proof (configs_good_batch n g _ CC NE Hs) as GB.
  destruct (wrapper_used g W (sample st) GB) as (W1 & c & E1 & SW1 & _ & _ & U).
  destruct (wrapper_used g W0 (sample st) GB) as (W2 & c0 & E2 & _ & _ & _ & U0).
  unfold netket_sweep, hamiltonian_sweep. rewrite (wrapper_find_conn g W0 d _ W2 c0 E2), E1. cbn [bind snd fst conns mels uses].
  assert (UE : forall i, i < length (sample st) -> used_connections c i = used_connections c0 i /\
             count_true (at_sample i false (uses c)) = count_true (at_sample i false (uses c0))).
  { intros i Hi. destruct (nth_error (sample st) i) as [s|] eqn:Es; [|apply nth_error_None in Es; lia].
    destruct (U i s Es) as [A1 A2]. destruct (U0 i s Es) as [B1 B2]. rewrite SW in A1. rewrite SW0 in B1. rewrite A2, B2, A1, B1. auto. }
  replace (candidates_loop {| conns := conns c; mels := mels c; uses := uses c |} 0 (fst input)) with (candidates_loop c0 0 (fst input)).
  2: { symmetry. apply candidates_loop_ext. intros i Hi. rewrite <- (proj1 (UE i ltac:(lia))). now destruct c. }
  destruct (candidates_loop c0 0 (fst input)) as [cs|e] eqn:Ecs; [|right; exists e; auto]. cbn [bind]. left.
  destruct (candidates_loop_in c0 (fun x => In x (spin_configs n)) (fst input) 0 cs Ecs) as [Lcs Hcs].
  { intros i x Hi Hx. destruct (nth_error (sample st) i) as [s|] eqn:Es; [|apply nth_error_None in Es; lia].
    destruct (U0 i s Es) as [B1 _]. rewrite SW0 in B1. rewrite B1 in Hx. apply (moves_configs n g s x CC); [|exact Hx]. apply Hs. eapply nth_error_In; eauto. }
  assert (NC : cs <> []) by (intros E; rewrite E in Lcs; cbn in Lcs; lia).
  pose proof (configs_good_batch n g _ CC NC Hcs) as GC.
  destruct (wrapper_used g W1 cs GC) as (W3 & c' & E3 & SW3 & _ & _ & V).
  destruct (wrapper_used g W0 cs GC) as (W4 & c0' & E4 & _ & _ & _ & V0).
  rewrite (wrapper_find_conn g W0 d _ W4 c0' E4), E3. cbn [bind snd fst conns mels uses].
  assert (M1 : map (fun i => count_true (at_sample i false (uses c))) (range (length (sample st))) = map (fun i => count_true (at_sample i false (uses c0))) (range (length (sample st)))).
  { apply map_ext_in. intros i Hi. apply in_seq in Hi. apply UE. lia. }
  assert (M2 : map (fun i => count_true (at_sample i false (uses c'))) (range (length (sample st))) = map (fun i => count_true (at_sample i false (uses c0'))) (range (length (sample st)))).
  { apply map_ext_in. intros i Hi. apply in_seq in Hi. destruct (nth_error cs i) as [s|] eqn:Es; [|apply nth_error_None in Es; lia].
    destruct (V i s Es) as [A1 A2]. destruct (V0 i s Es) as [B1 B2]. rewrite SW1, SW in A1. rewrite SW0 in B1. rewrite A2, B2, A1, B1. auto. }
  rewrite M1, M2. eexists _, _. split; [reflexivity|]. split; [reflexivity|]. split; [congruence|]. split; cbn [sample fst].
  - now rewrite masked_length.
  - now apply masked_in.
Qed.

Lemma netket_run_same n k g lp draws W0 d : connects_configurations n g -> should_calc_unused W0 = true -> 0 < k ->
  (forall t, length (fst (draws t)) = k) ->
  forall sweeps t W st accepted, should_calc_unused W = true -> chains_of n k st ->
  match netket_run g lp draws t sweeps W st accepted with Ok r => Ok (snd r) | Err e => Err e end =
  run_sweeps (hamiltonian_sweep (netket_operator g W0 d) lp) draws t sweeps st accepted.
Proof.
  intros CC SW0 Hk HD. induction sweeps as [|sweeps IH]; intros t W st accepted SW Hst; [reflexivity|]. cbn [netket_run run_sweeps].
  destruct (netket_sweep_same n k g lp (draws t) W W0 d st CC SW SW0 Hk Hst (HD t)) as [(W' & r & E1 & E2 & SW' & Hr)|(e & E1 & E2)]; rewrite E1, E2; cbn [bind]; [|reflexivity].
  cbn [fst snd]. now apply IH.
Qed.
