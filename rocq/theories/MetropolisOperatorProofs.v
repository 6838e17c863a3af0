(** The Ising and the Heisenberg operator have symmetric connectivity. *)
From Coq Require Import List ZArith Reals Bool Arith Lia Lra Permutation.
From Verif Require Import Base Cplx LatticeSpec IsingModel IsingProofs HeisenbergModel HeisenbergProofs AutoregressiveSpec
  ObservableModel ObservableSpec ObservableProofs ExactModel ExactSpec ExactProofs ExactOperatorProofs
  MetropolisModel MetropolisSpec MetropolisProofs.
Import ListNotations.
Local Open Scope nat_scope.

Lemma select_all {A} (l : list A) : select (repeat true (length l)) l = l.
Proof. induction l as [|a l IH]; cbn [length repeat select]; [reflexivity|now rewrite IH]. Qed.
Lemma count_true_all n : count_true (repeat true n) = n.
Proof. unfold count_true. induction n; cbn [repeat filter length]; [reflexivity|now rewrite IHn]. Qed.
Lemma count_select {A} (m : list bool) : forall (l : list A), length m = length l -> count_true m = length (select m l).
Proof.
  unfold count_true. induction m as [|b m IH]; intros [|a l] E; cbn [length] in E; try discriminate; [reflexivity|].
  injection E as E. cbn [filter select]. destruct b; cbn [length]; now rewrite (IH l).
Qed.

Lemma flip_site_involution s k : flip_site (flip_site s k) k = s.
Proof.
  unfold flip_site. destruct (Nat.lt_ge_cases k (length s)) as [L|L].
  - apply (nth_ext _ _ 0%Z 0%Z); [now rewrite !upd_length|]. intros i _. destruct (Nat.eq_dec i k) as [->|N].
    + rewrite nth_upd_same by now rewrite upd_length. rewrite nth_upd_same by exact L. lia.
    + now rewrite !nth_upd_other by auto.
  - apply (nth_ext _ _ 0%Z 0%Z); [now rewrite !upd_length|]. intros i Hi. rewrite !upd_length in Hi. rewrite !nth_upd_other by lia. reflexivity.
Qed.

Lemma ising_connectivity J h pbc shape : good_shape shape pbc ->
  symmetric_connectivity (sites_of shape) (ising_operator J h pbc shape) (fun s => s :: map (flip_site s) (range (sites_of shape))).
Proof.
  intros G. split; [|split].
  - intros samples _ Hs. destruct (ising_find_conn_ok J (PyFloat h) pbc shape samples G) as (conn & mel & use & E & L1 & L2 & U & H).
    exists (of_real_arrays conn mel use). split; [cbn [find_conn ising_operator]; now rewrite E|].
    intros i s Hi. assert (Hl : i < length samples) by (apply nth_error_Some; congruence).
    specialize (H i Hl). rewrite (nth_error_nth _ _ [] Hi) in H. cbv zeta in H. destruct H as [H _].
    unfold used_connections. cbn [conns uses of_real_arrays].
    change (at_sample i [] conn) with (column i [] conn).
    assert (EU : at_sample i false use = repeat true (length (column i [] conn))).
    { unfold column, at_sample. rewrite map_length, L1. subst use. rewrite map_repeat. f_equal. now apply nth_repeat_lt. }
    rewrite EU, select_all, count_true_all, H. split; reflexivity.
  - intros s Hs. split; [discriminate|]. intros t [<-|Ht]; [exact Hs|]. apply in_map_iff in Ht. destruct Ht as (k & <- & _).
    apply spins_in. apply flip_site_spins. now apply spins_in.
  - intros s t Hs Ht. unfold occurrences. cbn [count_occ].
    pose proof (involution_symmetric (sites_of shape) flip_site (range (sites_of shape))
                  (fun s k _ _ => flip_site_involution s k) s t Hs Ht) as Q. unfold occurrences in Q. rewrite Q.
    destruct (list_eq_dec Z.eq_dec s t), (list_eq_dec Z.eq_dec t s); congruence.
Qed.

(** The connections of a Heisenberg buffer. *)
Definition buffer_connections (K : nat) (r : buffers) : list (list Z) :=
  select (map (fun k => nth k (all_use r) false) (range K)) (map (fun k => nth k (all_conn r) []) (range K)).

Lemma Zsum_scal {A} (c : Z) (f : A -> Z) l : (Zsum (fun a => c * f a) l = c * Zsum f l)%Z.
Proof. induction l as [|a l IH]; [cbn; lia|]. rewrite !Zsum_cons, IH. lia. Qed.

Lemma occurrences_select t (u : nat -> bool) (c : nat -> list Z) l :
  Z.of_nat (occurrences t (select (map u l) (map c l))) =
  Zsum (fun k => if u k && (if list_eq_dec Z.eq_dec (c k) t then true else false) then 1%Z else 0%Z) l.
Proof.
  unfold occurrences. induction l as [|k l IH]; [reflexivity|]. rewrite Zsum_cons, <- IH. cbn [map select].
  destruct (u k); cbn [andb]; [|lia]. cbn [count_occ]. destruct (list_eq_dec Z.eq_dec (c k) t); lia.
Qed.

Lemma heisenberg_connections shape rot pbc batches H : chain_or_grid shape ->
  run_calls (heisenberg_init shape rot pbc) batches = Ok H ->
  exists g, symmetric_connectivity (sites_of shape) (heisenberg_operator H) g /\
    (forall s, In s (spin_configs (sites_of shape)) -> In s (g s)) /\
    (forall s t, In s (spin_configs (sites_of shape)) -> s <> t ->
       (off_diag rot * Z.of_nat (occurrences t (g s)) = heisenberg_element (off_diag rot) (shape_bonds shape pbc) s t)%Z).
Proof.
  intros G EH. set (K := max_number_of_local_connections shape).
  destruct (run_calls_inv shape (off_diag rot) pbc batches G _ (init_inv shape rot pbc)) as (H' & E2 & I).
  assert (H' = H) by congruence. subst H'. pose proof (inv_conn _ _ _ _ I) as EC.
  set (f := fun x => column_find_conn (off_diag rot) pbc (length shape) (rows_of shape) (cols_of shape) x
      (new_buffers (rows_of shape * cols_of shape * length shape + 1) (rows_of shape * cols_of shape))).
  assert (Reads : forall samples, exists H1, heisenberg_find_conn H samples = Ok (H1, length samples) /\
            read_result H1 (length samples) = map f samples).
  { intros samples. destruct (find_conn_step _ _ _ H samples G I) as (H1 & E3 & _ & _ & R1 & _). exists H1. split; [exact E3|exact R1]. }
  assert (Rows : forall s, In s (spin_configs (sites_of shape)) ->
     length (all_conn (f s)) = K /\ nth 0 (all_conn (f s)) [] = s /\ nth 0 (all_use (f s)) false = true /\
      (forall t, used_row_sum (all_conn (f s)) (all_mel (f s)) (all_use (f s)) t = heisenberg_element (off_diag rot) (shape_bonds shape pbc) s t) /\
      (forall k, (0 < k < K)%nat -> nth k (all_use (f s)) false = true ->
           nth k (all_mel (f s)) 0%Z = off_diag rot /\ nth k (all_conn (f s)) [] <> s /\ spins (sites_of shape) (nth k (all_conn (f s)) []))).
  { intros s Hs. destruct (heisenberg_rows shape rot pbc batches [s] G) as (Ha & H1 & ref & Ea & Eb & _ & HR).
    assert (Ha = H) by congruence. subst Ha. destruct (Reads [s]) as (H1' & E3 & R). assert (X : (H1, ref) = (H1', 1)) by (cbn [length] in E3; congruence).
    injection X as -> ->. cbn [length] in R. destruct (HR 0 s (f s)) as (A1 & A2 & A3 & A4 & A5); [reflexivity|rewrite R; reflexivity|now apply spins_in|].
    split; [exact A1|]. split; [exact A2|]. split; [exact A3|]. split; [exact A4|].
    intros k Hk Hu. specialize (A5 k). rewrite A1 in A5. fold K in A5. specialize (A5 Hk). rewrite Hu in A5. tauto. }
  assert (K0 : 0 < K) by (unfold K, max_number_of_local_connections; lia).
  assert (Occ : forall s t, In s (spin_configs (sites_of shape)) -> s <> t ->
     (off_diag rot * Z.of_nat (occurrences t (buffer_connections K (f s))) = heisenberg_element (off_diag rot) (shape_bonds shape pbc) s t)%Z).
  { intros s t Hs N. destruct (Rows s Hs) as (A1 & A2 & A3 & A4 & A5). rewrite <- A4. unfold buffer_connections.
    rewrite occurrences_select. unfold used_row_sum. rewrite A1, <- Zsum_scal. apply Zsum_ext. intros k Hk. apply in_seq in Hk.
    destruct (nth k (all_use (f s)) false) eqn:Eu; cbn [andb]; [|lia].
    destruct (list_eq_dec Z.eq_dec (nth k (all_conn (f s)) []) t) as [E|]; [|lia].
    destruct k as [|k]; [congruence|]. destruct (A5 (S k)) as (-> & _); [lia|exact Eu|]. lia. }
  exists (fun s => buffer_connections K (f s)). split; [split; [|split]|split; [|exact Occ]].
  - intros samples _ Hs. destruct (Reads samples) as (H1 & E1 & R1).
    eexists. split; [cbn [find_conn heisenberg_operator]; rewrite E1; cbn [bind fst snd]; rewrite R1, EC, map_map; reflexivity|].
    intros i s Hi. fold K.
    assert (AT : forall {A B} (d : B) (h : nat -> A -> B) (l : list A) (a : A), nth_error l i = Some a ->
               at_sample i d (map (fun k => map (h k) l) (range K)) = map (fun k => h k a) (range K)).
    { intros A B d h l a Hl. unfold at_sample. rewrite map_map. apply map_ext. intros k. apply nth_error_nth. now apply map_nth_error. }
    unfold used_connections, of_samples. cbn [conns uses].
    pose proof (map_nth_error (fun x => (all_conn (f x), all_mel (f x), all_use (f x))) _ _ Hi) as Hn.
    rewrite !(AT _ _ _ _ _ _ Hn). cbn [fst snd]. split; [reflexivity|].
    unfold buffer_connections. apply count_select. now rewrite !map_length.
  - intros s Hs. destruct (Rows s Hs) as (A1 & A2 & A3 & A4 & A5). split.
    + unfold buffer_connections. destruct K as [|k]; [lia|]. cbn [range seq map select]. unfold range. cbn [seq map select]. rewrite A3. discriminate.
    + intros t Ht. apply spins_in.
      assert (SI : forall l, In t (select (map (fun k => nth k (all_use (f s)) false) l) (map (fun k => nth k (all_conn (f s)) []) l)) ->
                exists k, In k l /\ nth k (all_use (f s)) false = true /\ t = nth k (all_conn (f s)) []).
      { induction l as [|k l IH]; cbn [map select]; [intros []|]. destruct (nth k (all_use (f s)) false) eqn:Eu.
        - intros [<-|Hi]; [exists k; split; [now left|auto]|]. destruct (IH Hi) as (k' & ? & ?). exists k'. split; [now right|auto].
        - intros Hi. destruct (IH Hi) as (k' & ? & ?). exists k'. split; [now right|auto]. }
      destruct (SI _ Ht) as (k & Hk & Hu & ->). apply in_seq in Hk. destruct k as [|k]; [rewrite A2; now apply spins_in|].
      now apply A5; [lia|].
  - intros s t Hs Ht. destruct (list_eq_dec Z.eq_dec s t) as [->|N]; [reflexivity|].
    pose proof (Occ s t Hs N) as O1. pose proof (Occ t s Ht (not_eq_sym N)) as O2.
    apply spins_in in Hs. apply spins_in in Ht. destruct Hs as [Ls _]. destruct Ht as [Lt _].
    rewrite (heisenberg_symmetric (off_diag rot) _ _ s t (shape_bonds_ok shape pbc G) Ls Lt) in O1.
    rewrite <- O1 in O2. unfold off_diag in O2. destruct rot; lia.
  - intros s Hs. destruct (Rows s Hs) as (A1 & A2 & A3 & _). unfold buffer_connections. destruct K as [|k]; [lia|].
    unfold range. cbn [seq map select]. rewrite A3, A2. now left.
Qed.

Lemma heisenberg_connectivity shape rot pbc batches H : chain_or_grid shape ->
  run_calls (heisenberg_init shape rot pbc) batches = Ok H ->
  exists g, symmetric_connectivity (sites_of shape) (heisenberg_operator H) g.
Proof. intros G E. destruct (heisenberg_connections shape rot pbc batches H G E) as (g & Hg & _). now exists g. Qed.
