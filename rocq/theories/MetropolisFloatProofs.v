(** The samplers with amplitudes that may be infinite or nan. *)
From Coq Require Import List ZArith Reals Bool Arith Lia Lra.
From Verif Require Import Base Cplx LatticeSpec IsingProofs AutoregressiveSpec ObservableModel ObservableSpec ObservableProofs ExactModel ExactSpec ExactProofs
  McmcStatsModel MetropolisModel MetropolisSpec MetropolisProofs MetropolisFloatModel MetropolisFloatSpec NetketSamplerProofs.
Import ListNotations.
Local Open Scope R_scope.

(** ** The difference of the logarithms *)
Definition ratio_of (d : npfloat) : npcomplex := np_cmul (d, Finite 0) (Finite 2, Finite 0).
Lemma log_ratio_of cv sv : float_log_ratio cv sv = ratio_of (np_sub (fst cv) (fst sv)).
Proof. reflexivity. Qed.
Lemma ratio_finite a : ratio_of (Finite a) = (Finite (a * 2), Finite 0).
Proof. unfold ratio_of, np_cmul, np_sub. cbn [fst snd np_mul np_neg np_add]. f_equal; f_equal; ring. Qed.
Lemma inf_two b : np_inf_times b 2 = if b then PlusInf else MinusInf.
Proof. unfold np_inf_times. destruct (Req_EM_T 2 0); [lra|]. destruct (Rlt_dec 0 2); [|lra]. destruct b; reflexivity. Qed.
Lemma inf_zero b : np_inf_times b 0 = NaN.
Proof. unfold np_inf_times. destruct (Req_EM_T 0 0); [reflexivity|congruence]. Qed.
Lemma ratio_not_finite d : np_isfinite d = false -> ratio_of d = (d, NaN).
Proof.
  intros H. unfold ratio_of, np_cmul, np_sub. destruct d; try discriminate; cbn [fst snd np_mul np_neg np_add]; rewrite ?inf_two, ?inf_zero; reflexivity.
Qed.

Lemma exp_nan_false d u : np_isfinite d = false -> 0 <= u -> np_cgreater (np_cexp (d, NaN)) (Finite u, Finite 0) = false.
Proof.
  intros H Hu. destruct d; try discriminate; unfold np_cgreater; cbn [np_cexp fst snd np_less np_equal np_isnan negb andb orb]; rewrite ?andb_false_r; try reflexivity.
  destruct (Rlt_dec u 0); [lra|]. destruct (Rlt_dec 0 0); [lra|]. rewrite andb_false_r. reflexivity.
Qed.

Lemma symmetric_not_finite (cv sv : npcomplex) u : np_isfinite (np_sub (fst cv) (fst sv)) = false -> 0 <= u -> float_symmetric_accepts cv sv u = false.
Proof.
  intros H Hu. unfold float_symmetric_accepts. rewrite log_ratio_of, ratio_not_finite by exact H. unfold np_cminimum. cbn [fst snd np_isnan].
  rewrite orb_true_r. cbn [orb]. now apply exp_nan_false.
Qed.
Lemma add_not_finite x y : np_isfinite x = false -> np_isfinite (np_add x y) = false.
Proof. destruct x, y; try discriminate; reflexivity. Qed.
Lemma hamiltonian_not_finite n n' (cv sv : npcomplex) u : np_isfinite (np_sub (fst cv) (fst sv)) = false -> 0 <= u -> float_hamiltonian_accepts n n' cv sv u = false.
Proof.
  intros H Hu. unfold float_hamiltonian_accepts. rewrite log_ratio_of, ratio_not_finite by exact H. cbn [fst snd np_add].
  apply exp_nan_false; [now apply add_not_finite|exact Hu].
Qed.

Lemma sub_candidate (cv sv : npcomplex) : ~ has_modulus cv -> np_isfinite (np_sub (fst cv) (fst sv)) = false.
Proof.
  intros H. destruct cv as [c i], sv as [s j]. cbn [fst]. unfold has_modulus in H. cbn [fst] in H.
  destruct c, s; try reflexivity; exfalso; apply H; eexists; reflexivity.
Qed.
Lemma sub_sample (cv sv : npcomplex) : ~ has_modulus sv -> np_isfinite (np_sub (fst cv) (fst sv)) = false.
Proof.
  intros H. destruct cv as [c i], sv as [s j]. cbn [fst]. unfold has_modulus in H. cbn [fst] in H.
  destruct c, s; try reflexivity; exfalso; apply H; eexists; reflexivity.
Qed.

(** ** Finite amplitudes *)
Lemma gt_real x u : np_cgreater (Finite x, Finite 0) (Finite u, Finite 0) = if Rlt_dec u x then true else false.
Proof.
  unfold np_cgreater. cbn [fst snd np_less np_equal np_isnan negb]. rewrite !andb_true_r. destruct (Rlt_dec 0 0); [lra|]. rewrite andb_false_r, orb_false_r. reflexivity.
Qed.
Lemma exp_real x : np_cexp (Finite x, Finite 0) = (Finite (exp x), Finite 0).
Proof. cbn [np_cexp]. rewrite cos_0, sin_0. f_equal; f_equal; ring. Qed.
Lemma min_real x : np_cminimum (Finite x, Finite 0) (Finite 0, Finite 0) = (Finite (Rmin x 0), Finite 0).
Proof.
  unfold np_cminimum, np_cless_equal. cbn [fst snd np_less np_equal np_isnan negb orb]. rewrite !andb_true_r.
  destruct (Rlt_dec 0 0); [lra|]. destruct (Req_EM_T 0 0); [|congruence]. cbn [orb]. rewrite andb_true_r. unfold Rmin.
  destruct (Rlt_dec x 0), (Req_EM_T x 0), (Rle_dec x 0); cbn [orb]; try lra; reflexivity.
Qed.
Lemma symmetric_accepts_same cv sv u : float_symmetric_accepts (of_C cv) (of_C sv) u = symmetric_accepts cv sv u.
Proof.
  unfold float_symmetric_accepts, symmetric_accepts. rewrite log_ratio_of. unfold of_C at 1 2, np_sub. cbn [fst np_neg np_add].
  rewrite ratio_finite, min_real, exp_real, gt_real. reflexivity.
Qed.
Lemma hamiltonian_accepts_same n n' cv sv u : (0 < n)%nat -> float_hamiltonian_accepts n n' (of_C cv) (of_C sv) u = hamiltonian_accepts n n' cv sv u.
Proof.
  intros Hn. assert (Pn : 0 < INR n) by now apply lt_0_INR.
  unfold float_hamiltonian_accepts, hamiltonian_accepts. rewrite log_ratio_of. unfold of_C, np_sub. cbn [fst np_neg np_add]. rewrite ratio_finite. cbn [fst snd].
  unfold np_div. destruct (Nat.eqb_spec n' 0) as [->|N].
  - cbn [INR]. destruct (Req_EM_T 0 0); [|congruence]. destruct (Req_EM_T (INR n) 0); [lra|]. destruct (Rlt_dec 0 (INR n)); [|lra].
    cbn [np_log np_add]. replace (Finite (0 + 0)) with (Finite 0) by (f_equal; ring). cbn [np_cexp]. destruct (Req_EM_T 0 0); [|congruence]. reflexivity.
  - assert (Pn' : 0 < INR n') by (apply lt_0_INR; lia). destruct (Req_EM_T (INR n') 0); [lra|]. cbn [np_log].
    destruct (Rlt_dec 0 (INR n / INR n')) as [_|Q]; [|exfalso; apply Q; now apply Rdiv_lt_0_compat]. cbn [np_add].
    replace (Finite (0 + 0)) with (Finite 0) by (f_equal; ring). rewrite exp_real, gt_real. reflexivity.
Qed.

Lemma map_masked {A B} (f : A -> B) mask : forall new old, map f (masked_assign mask new old) = masked_assign mask (map f new) (map f old).
Proof. induction mask as [|m mask IH]; intros [|a new] [|b old]; cbn [masked_assign map]; try reflexivity. rewrite IH. now destruct m. Qed.
Lemma finite_numbers l : forallb np_cisfinite (map of_C l) = true.
Proof. induction l as [|a l IH]; [reflexivity|]. cbn [map forallb]. rewrite IH. reflexivity. Qed.
Lemma accepts_same : forall (cvs svs : list C) us,
  map2 (fun cs u => float_symmetric_accepts (fst cs) (snd cs) u) (combine (map of_C cvs) (map of_C svs)) us =
  map2 (fun cs u => symmetric_accepts (fst cs) (snd cs) u) (combine cvs svs) us.
Proof.
  induction cvs as [|c cvs IH]; intros [|s svs] [|u us]; cbn [map combine map2]; try reflexivity. cbn [fst snd]. now rewrite symmetric_accepts_same, IH.
Qed.

Lemma symmetric_sweep_same {D} (candidate : list Z -> D -> list Z) lp input st :
  float_symmetric_sweep candidate (fun s => of_C (lp s)) input (of_chains st) =
  match symmetric_sweep candidate lp input st with Ok r => Ok (of_chains (fst r), snd r) | Err e => Err e end.
Proof.
  unfold float_symmetric_sweep, symmetric_sweep, of_chains. cbn [float_sample float_values]. set (cs := map2 candidate (sample st) (fst input)).
  assert (E : map (fun s => of_C (lp s)) cs = map of_C (map lp cs)) by now rewrite map_map.
  rewrite E, finite_numbers. cbn [negb]. rewrite accepts_same. cbn [fst snd sample sample_machine_values]. now rewrite map_masked.
Qed.

(** Which connections a candidate is drawn from. *)
Lemma candidates_used c : forall ds i cs, candidates_loop c i ds = Ok cs -> forall k, (k < length ds)%nat -> used_connections c (i + k) <> [].
Proof.
  induction ds as [|d ds IH]; intros i cs E k Hk; cbn [candidates_loop length] in *; [lia|].
  destruct (hamiltonian_candidate c i d) as [s|e] eqn:Es; [|discriminate]. cbn [bind] in E.
  destruct (candidates_loop c (S i) ds) as [r|e] eqn:Er; [|discriminate]. destruct k as [|k].
  - rewrite Nat.add_0_r. intros U. unfold hamiltonian_candidate in Es. rewrite U in Es. discriminate.
  - replace (i + S k)%nat with (S i + k)%nat by lia. apply (IH (S i) r Er). lia.
Qed.
Lemma candidates_count c : forall ds i cs, candidates_loop c i ds = Ok cs -> length cs = length ds.
Proof.
  induction ds as [|d ds IH]; intros i cs E; cbn [candidates_loop] in E; [injection E as <-; reflexivity|].
  destruct (hamiltonian_candidate c i d) as [s|e]; [|discriminate]. cbn [bind] in E. destruct (candidates_loop c (S i) ds) as [r|e] eqn:Er; [|discriminate].
  injection E as <-. cbn [length]. f_equal. eapply IH; eauto.
Qed.
Lemma select_count {A} : forall (m : list bool) (l : list A), select m l <> [] -> (0 < count_true m)%nat.
Proof.
  unfold count_true. induction m as [|b m IH]; intros l H; [destruct l; exfalso; apply H; reflexivity|]. destruct l as [|a l]; [exfalso; apply H; reflexivity|].
  cbn [select filter] in *. destruct b; cbn [length]; [lia|]. now apply (IH l).
Qed.

Lemma hamiltonian_accepts_same_list : forall (nums nums' : list nat) (cvs svs : list C) us, (forall k x, nth_error nums k = Some x -> (k < length cvs)%nat -> (0 < x)%nat) ->
  map2 (fun x u => float_hamiltonian_accepts (fst (fst x)) (snd (fst x)) (fst (snd x)) (snd (snd x)) u) (combine (combine nums nums') (combine (map of_C cvs) (map of_C svs))) us =
  map2 (fun x u => hamiltonian_accepts (fst (fst x)) (snd (fst x)) (fst (snd x)) (snd (snd x)) u) (combine (combine nums nums') (combine cvs svs)) us.
Proof.
  induction nums as [|a nums IH]; intros [|a' nums'] cvs svs us H; try reflexivity. destruct cvs as [|c cvs], svs as [|s svs]; try reflexivity. destruct us as [|u us]; [reflexivity|].
  cbn [map combine map2 fst snd]. rewrite hamiltonian_accepts_same by (apply (H 0%nat a eq_refl); cbn; lia). f_equal. apply IH. intros k x Hk Hl. apply (H (S k) x Hk). cbn. lia.
Qed.
Lemma hamiltonian_sweep_same op lp input st : float_hamiltonian_sweep op (fun s => of_C (lp s)) input (of_chains st) =
  match hamiltonian_sweep op lp input st with Ok r => Ok (of_chains (fst r), snd r) | Err e => Err e end.
Proof.
  unfold float_hamiltonian_sweep, hamiltonian_sweep, of_chains. cbn [float_sample float_values].
  destruct (find_conn op (sample st)) as [c|e]; [|reflexivity]. cbn [bind]. destruct (candidates_loop c 0 (fst input)) as [cs|e] eqn:Ecs; [|reflexivity]. cbn [bind].
  destruct (find_conn op cs) as [c'|e]; [|reflexivity]. cbn [bind].
  assert (E : map (fun s => of_C (lp s)) cs = map of_C (map lp cs)) by now rewrite map_map. rewrite E.
  rewrite hamiltonian_accepts_same_list; [cbn [fst snd sample sample_machine_values]; now rewrite map_masked|].
  intros k x Hk Hl. rewrite map_length, (candidates_count _ _ _ _ Ecs) in Hl. rewrite nth_error_map in Hk. destruct (nth_error (range (length (sample st))) k) as [j|] eqn:Ej; [|discriminate].
  injection Hk as <-. assert (Hj : j = k).
  { assert (Lk : (k < length (range (length (sample st))))%nat) by (apply nth_error_Some; congruence). unfold range in *. rewrite seq_length in Lk. apply (nth_error_nth _ _ 0%nat) in Ej. rewrite seq_nth in Ej by exact Lk. lia. }
  subst j. apply (select_count _ (at_sample k [] (conns c))). exact (candidates_used c (fst input) 0 cs Ecs k Hl).
Qed.

(** ** Chains that are stuck *)
Lemma masked_keeps {A} : forall mask (new old : list A) i, nth_error mask i <> Some true -> nth_error (masked_assign mask new old) i = nth_error old i.
Proof.
  induction mask as [|m mask IH]; intros [|a new] [|b old] [|i] H; cbn [masked_assign nth_error] in *; try reflexivity.
  - destruct m; [congruence|reflexivity].
  - now apply IH.
Qed.
Lemma nth_map2 {A B X} (f : A -> B -> X) : forall la lb i x, nth_error (map2 f la lb) i = Some x -> exists a b, nth_error la i = Some a /\ nth_error lb i = Some b /\ x = f a b.
Proof.
  induction la as [|a la IH]; intros [|b lb] [|i] x H; cbn [map2 nth_error] in *; try discriminate; [|now apply IH]. injection H as <-. eauto.
Qed.
Lemma nth_combine {A B} : forall (la : list A) (lb : list B) i x, nth_error (combine la lb) i = Some x -> nth_error la i = Some (fst x) /\ nth_error lb i = Some (snd x).
Proof.
  induction la as [|a la IH]; intros [|b lb] [|i] x H; cbn [combine nth_error] in *; try discriminate; [|now apply IH]. injection H as <-. auto.
Qed.

Lemma symmetric_frozen {D} (candidate : list Z -> D -> list Z) lp input st st' k i v : float_symmetric_sweep candidate lp input st = Ok (st', k) -> uniform_numbers (snd input) ->
  nth_error (float_values st) i = Some v -> ~ has_modulus v ->
  nth_error (float_sample st') i = nth_error (float_sample st) i /\ nth_error (float_values st') i = Some v.
Proof.
  intros E U Hv N. unfold float_symmetric_sweep in E. destruct (negb _); [discriminate|]. injection E as <- _. cbn [float_sample float_values].
  rewrite !masked_keeps; [auto| |]; intros A; apply nth_map2 in A; destruct A as (x & u & Hx & Hu & T); apply nth_combine in Hx; destruct Hx as [_ Hs];
    rewrite Hv in Hs; injection Hs as Hs; rewrite <- Hs, symmetric_not_finite in T; try discriminate; try (now apply sub_sample); apply U; eapply nth_error_In; eauto.
Qed.
Lemma hamiltonian_frozen op lp input st st' k i v : float_hamiltonian_sweep op lp input st = Ok (st', k) -> uniform_numbers (snd input) ->
  nth_error (float_values st) i = Some v -> ~ has_modulus v ->
  nth_error (float_sample st') i = nth_error (float_sample st) i /\ nth_error (float_values st') i = Some v.
Proof.
  intros E U Hv N. unfold float_hamiltonian_sweep in E. destruct (find_conn op (float_sample st)) as [c|]; [|discriminate]. cbn [bind] in E.
  destruct (candidates_loop c 0 (fst input)) as [cs|]; [|discriminate]. cbn [bind] in E. destruct (find_conn op cs) as [c'|]; [|discriminate]. injection E as <- _.
  cbn [float_sample float_values].
  rewrite !masked_keeps; [auto| |]; intros A; apply nth_map2 in A; destruct A as (x & u & Hx & Hu & T); apply nth_combine in Hx; destruct Hx as [_ Hs];
    apply nth_combine in Hs; destruct Hs as [_ Hs]; rewrite Hv in Hs; injection Hs as Hs; rewrite <- Hs, hamiltonian_not_finite in T; try discriminate; try (now apply sub_sample);
    apply U; eapply nth_error_In; eauto.
Qed.

Lemma run_keeps {I} (sweep : I -> float_chains -> res (float_chains * nat)) draws (P : float_chains -> Prop) :
  (forall t st st' k, sweep (draws t) st = Ok (st', k) -> P st -> P st') ->
  forall k t st a st' a', float_run_sweeps sweep draws t k st a = Ok (st', a') -> P st -> P st'.
Proof.
  intros H. induction k as [|k IH]; intros t st a st' a' E HP; cbn [float_run_sweeps] in E; [injection E as <- _; exact HP|].
  destruct (sweep (draws t) st) as [[st1 k1]|] eqn:E1; [|discriminate]. cbn [bind fst snd] in E. eapply IH; eauto.
Qed.

Lemma masked_entry {A} : forall mask (new old : list A) i x, nth_error (masked_assign mask new old) i = Some x ->
  nth_error old i = Some x \/ (nth_error mask i = Some true /\ nth_error new i = Some x).
Proof.
  induction mask as [|m mask IH]; intros [|a new] [|b old] [|i] x H; cbn [masked_assign nth_error] in *; auto; try discriminate.
  destruct m; auto.
Qed.
Lemma hamiltonian_keeps_finite op lp input st st' k : float_hamiltonian_sweep op lp input st = Ok (st', k) -> uniform_numbers (snd input) ->
  forall i s, nth_error (float_sample st') i = Some s -> nth_error (float_sample st) i = Some s \/ has_modulus (lp s).
Proof.
  intros E U i s Hs. unfold float_hamiltonian_sweep in E. destruct (find_conn op (float_sample st)) as [c|]; [|discriminate]. cbn [bind] in E.
  destruct (candidates_loop c 0 (fst input)) as [cs|]; [|discriminate]. cbn [bind] in E. destruct (find_conn op cs) as [c'|]; [|discriminate]. injection E as <- _.
  cbn [float_sample] in Hs. apply masked_entry in Hs. destruct Hs as [Hs|[A Hs]]; [now left|]. right.
  apply nth_map2 in A. destruct A as (x & u & Hx & Hu & T). apply nth_combine in Hx. destruct Hx as [_ Hx]. apply nth_combine in Hx. destruct Hx as [Hx _].
  rewrite nth_error_map, Hs in Hx. cbn [option_map] in Hx. injection Hx as Hx. destruct (fst (lp s)) as [r| | |] eqn:Er; [now exists r| | |]; exfalso;
    (rewrite hamiltonian_not_finite in T; [discriminate| |apply U; eapply nth_error_In; eauto]; apply sub_candidate; rewrite <- Hx; intros (r & Q); rewrite Er in Q; discriminate).
Qed.

(** ** A machine that vanishes outside the sector of total spin zero *)
Lemma same_list {A} : forall (l l' : list A), (forall i, nth_error l i = nth_error l' i) -> l = l'.
Proof.
  induction l as [|a l IH]; intros [|b l'] H; [reflexivity|specialize (H 0%nat); discriminate|specialize (H 0%nat); discriminate|].
  f_equal; [specialize (H 0%nat); cbn in H; congruence|]. apply IH. intros i. exact (H (S i)).
Qed.
Lemma not_finite_value z : ~ has_modulus z -> np_cisfinite z = false.
Proof. intros H. destruct z as [r i]. destruct r; try reflexivity. exfalso. apply H. now exists r. Qed.
Lemma number_finite z : is_number z -> np_cisfinite z = true.
Proof. intros (w & ->). reflexivity. Qed.

Lemma symmetric_raises {D} (candidate : list Z -> D -> list Z) lp input st s d i :
  nth_error (float_sample st) i = Some s -> nth_error (fst input) i = Some d -> np_cisfinite (lp (candidate s d)) = false ->
  float_symmetric_sweep candidate lp input st = Err GenericException.
Proof.
  intros Hs Hd N. unfold float_symmetric_sweep. replace (forallb np_cisfinite _) with false; [reflexivity|]. symmetry. apply not_true_iff_false. intros T.
  rewrite forallb_forall in T. assert (E : nth_error (map2 candidate (float_sample st) (fst input)) i = Some (candidate s d)) by (rewrite nth_error_map2, Hs, Hd; reflexivity).
  apply nth_error_In in E. specialize (T _ (in_map lp _ _ E)). congruence.
Qed.
Lemma all_stuck {D} (candidate : list Z -> D -> list Z) lp input st : uniform_numbers (snd input) -> Forall (fun v => ~ has_modulus v) (float_values st) ->
  length (float_values st) = length (float_sample st) ->
  float_symmetric_sweep candidate lp input st = Err GenericException \/ exists k, float_symmetric_sweep candidate lp input st = Ok (st, k).
Proof.
  intros U F L. destruct (float_symmetric_sweep candidate lp input st) as [[st' k]|e] eqn:E.
  - right. exists k. replace st' with st; [reflexivity|].
    assert (H : forall i, nth_error (float_sample st') i = nth_error (float_sample st) i /\ nth_error (float_values st') i = nth_error (float_values st) i).
    { intros i. destruct (nth_error (float_values st) i) as [v|] eqn:Ev.
      - rewrite Forall_forall in F. exact (symmetric_frozen candidate lp input st st' k i v E U Ev (F _ (nth_error_In _ _ Ev))).
      - assert (Es : nth_error (float_sample st) i = None) by (apply nth_error_None; apply nth_error_None in Ev; lia).
        unfold float_symmetric_sweep in E. destruct (negb _); [discriminate|]. injection E as <- _. cbn [float_sample float_values].
        rewrite !masked_keeps; [auto| |]; intros A; apply nth_map2 in A; destruct A as (x & u & Hx & _); apply nth_combine in Hx; destruct Hx as [_ Hx]; congruence. }
    destruct st as [a b], st' as [a' b']. cbn [float_sample float_values] in H. f_equal; symmetry; apply same_list; intros i; apply H.
  - left. unfold float_symmetric_sweep in E. destruct (negb _); [congruence|discriminate].
Qed.
Lemma run_first {I} (sweep : I -> float_chains -> res (float_chains * nat)) draws t k st a e : sweep (draws t) st = Err e -> float_run_sweeps sweep draws t (S k) st a = Err e.
Proof. intros E. cbn [float_run_sweeps]. now rewrite E. Qed.

Lemma sum_changes shape s d : In s (spin_configs (sites_of shape)) -> In d (sites shape) -> sumZ s = 0%Z -> sumZ (local_candidate shape s d) <> 0%Z.
Proof.
  intros Hs Hd Z. apply spins_in in Hs. pose proof (sites_lt _ _ Hd) as P. destruct Hs as [L Hn] eqn:Q. unfold local_candidate. rewrite sumZ_upd by lia.
  destruct (spins_nth _ _ _ Hs P) as [-> | ->]; lia.
Qed.
Lemma local_zero_spin shape lp draws t k st a : zero_spin_only (sites_of shape) lp -> fresh (sites_of shape) lp st ->
  (forall t, random_input (length (float_sample st)) (sites shape) (draws t)) ->
  let run := float_run_sweeps (float_symmetric_sweep (local_candidate shape) lp) draws t k st a in
  ((exists s, In s (float_sample st) /\ sumZ s = 0%Z) -> (0 < k)%nat -> run = Err GenericException) /\
  (run = Err GenericException \/ exists a', run = Ok (st, a')).
Proof.
  intros Z (Sp & V) R. cbv zeta.
  assert (First : (exists s, In s (float_sample st) /\ sumZ s = 0%Z) -> forall t, float_symmetric_sweep (local_candidate shape) lp (draws t) st = Err GenericException).
  { intros (s & Hs & S0) t0. destruct (In_nth_error _ _ Hs) as [i Hi]. destruct (R t0) as (Ld & Id & _).
    assert (Li : (i < length (fst (draws t0)))%nat) by (rewrite Ld; apply nth_error_Some; congruence).
    destruct (nth_error (fst (draws t0)) i) as [d|] eqn:Ed; [|apply nth_error_None in Ed; lia]. apply (symmetric_raises _ _ _ _ s d i Hi Ed). apply not_finite_value.
    apply Z; [apply local_spins; [now apply Sp|apply Id; eapply nth_error_In; eauto]|]. apply sum_changes; [now apply Sp|apply Id; eapply nth_error_In; eauto|exact S0]. }
  split; [intros H K; destruct k; [lia|]; apply run_first; now apply First|].
  destruct (Exists_dec (fun s => sumZ s = 0%Z) (float_sample st)) as [X|X]; [intros s; apply Z.eq_dec| |].
  - apply Exists_exists in X. destruct k as [|k]; [right; exists a; reflexivity|]. left. apply run_first. now apply First.
  - assert (F : Forall (fun v => ~ has_modulus v) (float_values st)).
    { rewrite V. apply Forall_forall. intros v Hv. apply in_map_iff in Hv. destruct Hv as (s & <- & Hs). apply Z; [now apply Sp|]. intros S0. apply X. apply Exists_exists. eauto. }
    assert (L : length (float_values st) = length (float_sample st)) by now rewrite V, map_length.
    clear First. revert t a. induction k as [|k IH]; intros t a; [right; exists a; reflexivity|]. cbn [float_run_sweeps].
    destruct (R t) as (_ & _ & _ & U). destruct (all_stuck (local_candidate shape) lp (draws t) st U F L) as [E|(k1 & E)]; rewrite E; cbn [bind fst snd]; [now left|apply IH].
Qed.

Lemma masked_incl {A} (P : A -> Prop) : forall mask new old, Forall P new -> Forall P old -> Forall P (masked_assign mask new old).
Proof.
  induction mask as [|m mask IH]; intros [|a new] [|b old] Hn Ho; cbn [masked_assign]; try exact Ho. inversion Hn; inversion Ho; subst. destruct m; constructor; auto.
Qed.
Lemma masked_same_length {A} : forall mask (new old : list A), length (masked_assign mask new old) = length old.
Proof. induction mask as [|m mask IH]; intros [|a new] [|b old]; cbn [masked_assign length]; try reflexivity. now rewrite IH. Qed.
Lemma map2_forall {A B X} (P : A -> Prop) (Q : B -> Prop) (S : X -> Prop) (f : A -> B -> X) : (forall a b, P a -> Q b -> S (f a b)) ->
  forall la lb, Forall P la -> Forall Q lb -> Forall S (map2 f la lb).
Proof. intros H. induction la as [|a la IH]; intros [|b lb] Ha Hb; cbn [map2]; try constructor; inversion Ha; inversion Hb; subst; auto. Qed.
Lemma exchange_inside shape lp draws : zero_spin_only (sites_of shape) lp ->
  forall k t st a, Forall (fun s => In s (spin_configs (sites_of shape)) /\ sumZ s = 0%Z) (float_sample st) ->
  (forall t, random_input (length (float_sample st)) (sites_and_moves shape) (draws t)) ->
  exists st' a', float_run_sweeps (float_symmetric_sweep (exchange_candidate shape) lp) draws t k st a = Ok (st', a') /\
    length (float_sample st') = length (float_sample st) /\ Forall (fun s => In s (spin_configs (sites_of shape)) /\ sumZ s = 0%Z) (float_sample st').
Proof.
  intros Z. induction k as [|k IH]; intros t st a F R; [exists st, a; cbn [float_run_sweeps]; auto|]. cbn [float_run_sweeps].
  destruct (R t) as (Ld & Id & Lu & U).
  assert (C : Forall (fun s => In s (spin_configs (sites_of shape)) /\ sumZ s = 0%Z) (map2 (exchange_candidate shape) (float_sample st) (fst (draws t)))).
  { apply (map2_forall (fun s => In s (spin_configs (sites_of shape)) /\ sumZ s = 0%Z) (fun d => In d (sites_and_moves shape))); [|exact F|now apply Forall_forall].
    intros s d [Hs S0] Hd. split; [now apply exchange_spins|]. now rewrite exchange_sum. }
  destruct (float_symmetric_sweep (exchange_candidate shape) lp (draws t) st) as [[st1 k1]|e] eqn:E.
  - cbn [bind fst snd]. assert (L1 : length (float_sample st1) = length (float_sample st) /\ Forall (fun s => In s (spin_configs (sites_of shape)) /\ sumZ s = 0%Z) (float_sample st1)).
    { unfold float_symmetric_sweep in E. destruct (negb _); [discriminate|]. injection E as <- _. cbn [float_sample]. split; [apply masked_same_length|now apply masked_incl]. }
    destruct L1 as [L1 F1]. destruct (IH (S t) st1 (a + k1)%nat F1) as (st' & a' & E' & L' & F'); [intros t'; rewrite L1; apply R|].
    exists st', a'. rewrite L', L1. auto.
  - exfalso. unfold float_symmetric_sweep in E. replace (forallb np_cisfinite _) with true in E; [discriminate|]. symmetry. apply forallb_forall. intros v Hv.
    apply in_map_iff in Hv. destruct Hv as (s & <- & Hs). rewrite Forall_forall in C. destruct (C s Hs) as [Hc S0]. apply number_finite. now apply (Z s Hc).
Qed.
Lemma exchange_outside shape lp draws t k st a : zero_spin_only (sites_of shape) lp -> incl (float_sample st) (spin_configs (sites_of shape)) ->
  (forall t, random_input (length (float_sample st)) (sites_and_moves shape) (draws t)) ->
  (exists s, In s (float_sample st) /\ sumZ s <> 0%Z) -> (0 < k)%nat ->
  float_run_sweeps (float_symmetric_sweep (exchange_candidate shape) lp) draws t k st a = Err GenericException.
Proof.
  intros Z Sp R (s & Hs & S0) K. destruct k; [lia|]. apply run_first. destruct (In_nth_error _ _ Hs) as [i Hi]. destruct (R t) as (Ld & Id & _).
  assert (Li : (i < length (fst (draws t)))%nat) by (rewrite Ld; apply nth_error_Some; congruence).
  destruct (nth_error (fst (draws t)) i) as [d|] eqn:Ed; [|apply nth_error_None in Ed; lia]. apply (symmetric_raises _ _ _ _ s d i Hi Ed). apply not_finite_value.
  assert (Hd : In d (sites_and_moves shape)) by (apply Id; eapply nth_error_In; eauto).
  apply Z; [apply exchange_spins; auto|]. rewrite exchange_sum; auto.
Qed.

(** ** Runs *)
Lemma run_same {I} (sweep : I -> chains -> res (chains * nat)) (fsweep : I -> float_chains -> res (float_chains * nat)) draws :
  (forall i st, fsweep i (of_chains st) = match sweep i st with Ok r => Ok (of_chains (fst r), snd r) | Err e => Err e end) ->
  forall k t st a, float_run_sweeps fsweep draws t k (of_chains st) a = match run_sweeps sweep draws t k st a with Ok r => Ok (of_chains (fst r), snd r) | Err e => Err e end.
Proof.
  intros H. induction k as [|k IH]; intros t st a; cbn [float_run_sweeps run_sweeps]; [reflexivity|]. rewrite H.
  destruct (sweep (draws t) st) as [[st1 k1]|e]; [|reflexivity]. cbn [bind fst snd]. apply IH.
Qed.

Lemma accepts_modulus n n' cv sv cv' sv' u : fst cv = fst cv' -> fst sv = fst sv' -> float_hamiltonian_accepts n n' cv sv u = float_hamiltonian_accepts n n' cv' sv' u.
Proof. intros A B. unfold float_hamiltonian_accepts, float_log_ratio. now rewrite A, B. Qed.
Lemma accepts_moduli : forall (xs : list (nat * nat)) (cvs cvs' svs svs' : list npcomplex) us, map fst cvs = map fst cvs' -> map fst svs = map fst svs' ->
  map2 (fun x u => float_hamiltonian_accepts (fst (fst x)) (snd (fst x)) (fst (snd x)) (snd (snd x)) u) (combine xs (combine cvs svs)) us =
  map2 (fun x u => float_hamiltonian_accepts (fst (fst x)) (snd (fst x)) (fst (snd x)) (snd (snd x)) u) (combine xs (combine cvs' svs')) us.
Proof.
  induction xs as [|x xs IH]; intros [|c cvs] [|c' cvs'] [|s svs] [|s' svs'] us A B; try discriminate; try reflexivity. cbn [map] in A, B. injection A as A0 A. injection B as B0 B.
  destruct us as [|u us]; [reflexivity|]. cbn [combine map2 fst snd]. f_equal; [now apply accepts_modulus|now apply IH].
Qed.
Lemma hamiltonian_moduli op lp lp' input st st' : (forall s, fst (lp s) = fst (lp' s)) -> float_sample st = float_sample st' -> map fst (float_values st) = map fst (float_values st') ->
  match float_hamiltonian_sweep op lp input st, float_hamiltonian_sweep op lp' input st' with
  | Ok r, Ok r' => float_sample (fst r) = float_sample (fst r') /\ map fst (float_values (fst r)) = map fst (float_values (fst r')) /\ snd r = snd r'
  | Err e, Err e' => e = e'
  | _, _ => False
  end.
Proof.
  intros H Es Ev. unfold float_hamiltonian_sweep. rewrite <- Es. destruct (find_conn op (float_sample st)) as [c|]; [|reflexivity]. cbn [bind].
  destruct (candidates_loop c 0 (fst input)) as [cs|]; [|reflexivity]. cbn [bind]. destruct (find_conn op cs) as [c'|]; [|reflexivity]. cbn [bind fst snd float_sample float_values].
  assert (Ec : map fst (map lp cs) = map fst (map lp' cs)) by (rewrite !map_map; apply map_ext; exact H).
  rewrite (accepts_moduli _ _ _ _ _ (snd input) Ec Ev). split; [reflexivity|]. split; [|reflexivity]. etransitivity; [apply map_masked|]. etransitivity; [|symmetry; apply map_masked]. f_equal; assumption.
Qed.
Lemma hamiltonian_run_moduli op lp lp' draws : (forall s, fst (lp s) = fst (lp' s)) -> forall k t st st' a, float_sample st = float_sample st' -> map fst (float_values st) = map fst (float_values st') ->
  match float_run_sweeps (float_hamiltonian_sweep op lp) draws t k st a, float_run_sweeps (float_hamiltonian_sweep op lp') draws t k st' a with
  | Ok r, Ok r' => float_sample (fst r) = float_sample (fst r') /\ snd r = snd r'
  | Err e, Err e' => e = e'
  | _, _ => False
  end.
Proof.
  intros H. induction k as [|k IH]; intros t st st' a Es Ev; cbn [float_run_sweeps]; [cbn [fst snd]; auto|].
  pose proof (hamiltonian_moduli op lp lp' (draws t) st st' H Es Ev) as S.
  destruct (float_hamiltonian_sweep op lp (draws t) st) as [[st1 k1]|e], (float_hamiltonian_sweep op lp' (draws t) st') as [[st1' k1']|e']; try contradiction; cbn [bind fst snd] in *; [|exact S].
  destruct S as (S1 & S2 & <-). now apply IH.
Qed.
Lemma frozen_run {I} (sweep : list I * list R -> float_chains -> res (float_chains * nat)) draws i s v :
  (forall input st st' k, sweep input st = Ok (st', k) -> uniform_numbers (snd input) -> nth_error (float_values st) i = Some v ->
     nth_error (float_sample st') i = nth_error (float_sample st) i /\ nth_error (float_values st') i = Some v) ->
  (forall t, uniform_numbers (snd (draws t))) ->
  forall k t st a st' a', float_run_sweeps sweep draws t k st a = Ok (st', a') -> nth_error (float_sample st) i = Some s -> nth_error (float_values st) i = Some v ->
    nth_error (float_sample st') i = Some s /\ nth_error (float_values st') i = Some v.
Proof.
  intros H U k t st a st' a' E Hs Hv. apply (run_keeps sweep draws (fun x => nth_error (float_sample x) i = Some s /\ nth_error (float_values x) i = Some v)) with (1 := fun t st st' k E P => 
    match H (draws t) st st' k E (U t) (proj2 P) with conj A B => conj (eq_trans A (proj1 P)) B end) (2 := E). auto.
Qed.
Lemma hamiltonian_run_finite op lp draws : (forall t, uniform_numbers (snd (draws t))) -> forall k t st a st' a', float_run_sweeps (float_hamiltonian_sweep op lp) draws t k st a = Ok (st', a') ->
  forall i s, nth_error (float_sample st') i = Some s -> nth_error (float_sample st) i = Some s \/ has_modulus (lp s).
Proof.
  intros U. induction k as [|k IH]; intros t st a st' a' E i s Hs; cbn [float_run_sweeps] in E; [injection E as <- _; auto|].
  destruct (float_hamiltonian_sweep op lp (draws t) st) as [[st1 k1]|] eqn:E1; [|discriminate]. cbn [bind fst snd] in E.
  destruct (IH _ _ _ _ _ E i s Hs) as [H|H]; [|now right]. exact (hamiltonian_keeps_finite op lp (draws t) st st1 k1 E1 (U t) i s H).
Qed.
Lemma finite_is_number z : np_cisfinite z = true -> is_number z.
Proof. destruct z as [r i]. destruct r, i; try discriminate. intros _. exists (r, r0). reflexivity. Qed.
Lemma symmetric_outcome {D} (candidate : list Z -> D -> list Z) lp input st :
  (float_symmetric_sweep candidate lp input st = Err GenericException /\
   exists i s d, nth_error (float_sample st) i = Some s /\ nth_error (fst input) i = Some d /\ ~ is_number (lp (candidate s d))) \/
  ((exists r, float_symmetric_sweep candidate lp input st = Ok r) /\
   forall i s d, nth_error (float_sample st) i = Some s -> nth_error (fst input) i = Some d -> is_number (lp (candidate s d))).
Proof.
  unfold float_symmetric_sweep. destruct (forallb np_cisfinite _) eqn:F; cbn [negb].
  - right. split; [eexists; reflexivity|]. intros i s d Hs Hd. rewrite forallb_forall in F. apply finite_is_number, F, in_map. apply (nth_error_In _ i). rewrite nth_error_map2, Hs, Hd. reflexivity.
  - left. split; [reflexivity|]. apply not_true_iff_false in F.
    destruct (Exists_dec (fun v => np_cisfinite v = false) (map lp (map2 candidate (float_sample st) (fst input)))) as [X|X]; [intros v; apply bool_dec| |].
    + apply Exists_exists in X. destruct X as (v & Hv & N). apply in_map_iff in Hv. destruct Hv as (c & <- & Hc). destruct (In_nth_error _ _ Hc) as [i Hi].
      apply nth_map2 in Hi. destruct Hi as (s & d & Hs & Hd & ->). exists i, s, d. split; [exact Hs|]. split; [exact Hd|]. intros W. apply number_finite in W. congruence.
    + exfalso. apply F. apply forallb_forall. intros v Hv. apply not_false_iff_true. intros N. apply X. apply Exists_exists. eauto.
Qed.

(** * The operations of numpy *)
Local Open Scope R_scope.
Lemma np_less_spec x y : np_less x y = true <-> below x y.
Proof.
  unfold below. split.
  - destruct x as [a| | |], y as [b| | |]; cbn [np_less]; intros E; try discriminate E; try (destruct (Rlt_dec a b); [|discriminate E]; right; right; eauto);
      try (left; repeat split; discriminate); right; left; repeat split; discriminate.
  - intros [(-> & A & B)|[(-> & A & B)|(a & b & -> & -> & L)]].
    + destruct y; cbn [np_less]; congruence.
    + destruct x; cbn [np_less]; congruence.
    + cbn [np_less]. destruct (Rlt_dec a b); [reflexivity|contradiction].
Qed.
Lemma np_equal_spec x y : np_equal x y = true <-> x = y /\ x <> NaN.
Proof.
  split.
  - destruct x as [a| | |], y as [b| | |]; cbn [np_equal]; intros E; try discriminate E; try (split; [reflexivity|discriminate]).
    destruct (Req_EM_T a b) as [->|]; [|discriminate E]. split; [reflexivity|discriminate].
  - intros [-> N]. destruct y as [b| | |]; cbn [np_equal]; try reflexivity; [|congruence]. destruct (Req_EM_T b b); congruence.
Qed.
Lemma np_isnan_spec x : np_isnan x = true <-> x = NaN.
Proof. destruct x; cbn; split; congruence. Qed.
Lemma below_numbers x y : below x y -> x <> NaN /\ y <> NaN.
Proof. intros [(-> & A & B)|[(-> & A & B)|(a & b & -> & -> & L)]]; split; congruence. Qed.
Lemma below_asym x y : below x y -> ~ below y x.
Proof.
  intros [(-> & A & B)|[(-> & A & B)|(a & b & -> & -> & L)]] [(E & A' & B')|[(E & A' & B')|(a' & b' & E & E' & L')]]; try congruence.
  injection E as ->. injection E' as ->. lra.
Qed.
Lemma below_irrefl x : ~ below x x.
Proof. intros H. exact (below_asym x x H H). Qed.
Lemma np_cgreater_spec (x y : npcomplex) : np_cgreater x y = true <-> ~ has_nan x /\ ~ has_nan y /\ cbelow y x.
Proof.
  unfold np_cgreater, has_nan, cbelow. rewrite orb_true_iff, !andb_true_iff, !negb_true_iff, !np_less_spec, np_equal_spec, <- !not_true_iff_false, !np_isnan_spec. split.
  - intros [[[A B] C]|[[A B] C]]; [pose proof (below_numbers _ _ A)|pose proof (below_numbers _ _ C); rewrite <- A]; tauto.
  - intros (A & B & [C|[C D]]); [tauto|]. right. rewrite C. rewrite C in B. tauto.
Qed.
Lemma np_cle_spec (x y : npcomplex) : np_cless_equal x y = true <-> ~ has_nan x /\ ~ has_nan y /\ (x = y \/ cbelow x y).
Proof.
  unfold np_cless_equal, has_nan, cbelow. rewrite orb_true_iff, !andb_true_iff, orb_true_iff, !negb_true_iff, !np_less_spec, !np_equal_spec, <- !not_true_iff_false, !np_isnan_spec.
  destruct x as [x1 x2], y as [y1 y2]. cbn [fst snd]. split.
  - intros [[[A B] C]|[[A B] [C|[C D]]]]; [pose proof (below_numbers _ _ A); tauto|pose proof (below_numbers _ _ C); subst; tauto|subst; tauto].
  - intros (A & B & [C|[C|[C D]]]); [injection C as -> ->; tauto|tauto|subst; tauto].
Qed.
Lemma float_order (x y : npcomplex) :
  (np_cgreater x y = true <-> ~ has_nan x /\ ~ has_nan y /\ cbelow y x) /\
  (np_cless_equal x y = true <-> ~ has_nan x /\ ~ has_nan y /\ (x = y \/ cbelow x y)) /\
  (has_nan x -> np_cminimum x y = x) /\
  (~ has_nan x -> has_nan y -> np_cminimum x y = y) /\
  (~ has_nan x -> ~ has_nan y -> cbelow x y -> np_cminimum x y = x) /\
  (~ has_nan x -> ~ has_nan y -> cbelow y x -> np_cminimum x y = y).
Proof.
  split; [apply np_cgreater_spec|]. split; [apply np_cle_spec|].
  assert (N : np_isnan (fst x) || np_isnan (snd x) = true <-> has_nan x) by (rewrite orb_true_iff, !np_isnan_spec; reflexivity).
  unfold np_cminimum. split; [intros H; apply N in H; now rewrite H|].
  split; [|split]; intros NX H; (destruct (np_isnan (fst x) || np_isnan (snd x)) eqn:E; [tauto|]); cbn [orb].
  - destruct (np_cless_equal x y) eqn:L; [|reflexivity]. apply np_cle_spec in L. tauto.
  - intros B. destruct (np_cless_equal x y) eqn:L; [reflexivity|]. exfalso. rewrite <- not_true_iff_false, np_cle_spec in L. tauto.
  - intros B. destruct (np_cless_equal x y) eqn:L; [|reflexivity]. apply np_cle_spec in L. destruct L as (_ & _ & [L|L]); [exact L|]. exfalso.
    destruct B as [B|[B1 B2]], L as [L|[L1 L2]].
    + exact (below_asym _ _ B L).
    + rewrite L1 in B. exact (below_irrefl _ B).
    + rewrite B1 in L. exact (below_irrefl _ L).
    + exact (below_asym _ _ B2 L2).
Qed.
Lemma float_finite_arithmetic (z w : C) (a b : R) :
  np_cmul (of_C z) (of_C w) = of_C (z * w)%C /\ np_cexp (of_C z) = of_C (Cexp z) /\
  np_cisfinite (of_C z) = true /\ np_mul (Finite a) (Finite b) = Finite (a * b) /\ np_sub (Finite a) (Finite b) = Finite (a - b) /\
  (0 < a -> np_log (Finite a) = Finite (ln a)).
Proof.
  destruct z as [z1 z2], w as [w1 w2]. unfold of_C, np_cmul, np_sub, Cexp, Cmult, Re, Im. cbn [fst snd np_mul np_neg np_add np_cexp np_cisfinite np_isfinite andb].
  split; [f_equal; f_equal; ring|]. split; [reflexivity|]. split; [reflexivity|]. split; [reflexivity|]. split; [f_equal; ring|].
  intros P. cbn [np_log]. destruct (Rlt_dec 0 a); [reflexivity|contradiction].
Qed.
Lemma inf_times_pos a : np_inf_times true a = infinity_of_sign a.
Proof. unfold np_inf_times, infinity_of_sign. destruct (Req_EM_T a 0), (Rlt_dec 0 a), (Rlt_dec a 0); cbn; try reflexivity; exfalso; lra. Qed.
Lemma inf_times_neg a : np_inf_times false a = infinity_of_sign (- a).
Proof. unfold np_inf_times, infinity_of_sign. destruct (Req_EM_T a 0), (Rlt_dec 0 a), (Rlt_dec 0 (- a)), (Rlt_dec (- a) 0); cbn; try reflexivity; exfalso; lra. Qed.
Lemma float_special_values (a i : R) (x : npfloat) :
  np_log (Finite 0) = MinusInf /\ (a < 0 -> np_log (Finite a) = NaN) /\ np_log PlusInf = PlusInf /\ np_log MinusInf = NaN /\ np_log NaN = NaN /\
  np_mul PlusInf (Finite a) = infinity_of_sign a /\ np_mul (Finite a) PlusInf = infinity_of_sign a /\
  np_mul MinusInf (Finite a) = infinity_of_sign (- a) /\ np_mul (Finite a) MinusInf = infinity_of_sign (- a) /\ np_mul x NaN = NaN /\ np_mul NaN x = NaN /\
  np_mul PlusInf PlusInf = PlusInf /\ np_mul MinusInf MinusInf = PlusInf /\ np_mul PlusInf MinusInf = MinusInf /\ np_mul MinusInf PlusInf = MinusInf /\
  np_cexp (MinusInf, x) = of_C C0 /\ np_cexp (PlusInf, Finite 0) = (PlusInf, Finite 0) /\
  (i <> 0 -> np_cexp (PlusInf, Finite i) = (infinity_of_sign (cos i), infinity_of_sign (sin i))) /\
  (i <> 0 -> np_cexp (NaN, Finite i) = (NaN, NaN)) /\ np_cexp (NaN, Finite 0) = (NaN, Finite 0) /\
  ((forall r, x <> Finite r) -> np_cexp (Finite a, x) = (NaN, NaN) /\ np_cexp (NaN, x) = (NaN, NaN) /\ np_cexp (PlusInf, x) = (PlusInf, NaN)) /\
  ((forall r, x <> Finite r) -> np_cisfinite (x, Finite a) = false /\ np_cisfinite (Finite a, x) = false).
Proof.
  cbn [np_log np_mul np_cexp]. rewrite inf_times_pos, inf_times_neg.
  split; [destruct (Rlt_dec 0 0); [lra|]; destruct (Req_EM_T 0 0); [reflexivity|lra]|].
  split; [intros N; destruct (Rlt_dec 0 a); [lra|]; destruct (Req_EM_T a 0); [lra|reflexivity]|].
  do 7 (split; [reflexivity|]). split; [now destruct x|]. split; [now destruct x|]. do 4 (split; [reflexivity|]). split; [now destruct x|].
  split; [destruct (Req_EM_T 0 0); [reflexivity|lra]|].
  split; [intros N; destruct (Req_EM_T i 0); [contradiction|]; now rewrite !inf_times_pos|].
  split; [intros N; destruct (Req_EM_T i 0); [contradiction|reflexivity]|].
  split; [destruct (Req_EM_T 0 0); [reflexivity|lra]|].
  split; intros N; destruct x as [r| | |]; try (exfalso; now apply (N r)); repeat split.
Qed.
