(** Lemmas: the NetKet operator of j1j2.py and its wrapper represent the J1-J2 Hamiltonian. *)
From Coq Require Import List ZArith Reals Bool Arith Lia Lra Permutation.
From Verif Require Import Base Cplx LatticeSpec IsingProofs HeisenbergProofs AutoregressiveSpec ObservableModel ObservableSpec ObservableProofs
  ExactModel ExactSpec J1J2Model J1J2Spec J1J2Proofs NetketModel NetketProofs J1J2OperatorModel SymmetricBondsProofs.
Import ListNotations.
Local Open Scope nat_scope.

(** * A wrapper that marks the entries with a vanishing element as unused *)
Lemma fold_max_le q l : Forall (fun x => x <= q) l -> fold_right Nat.max 0 l <= q.
Proof. induction 1; cbn [fold_right]; [lia|now apply Nat.max_lub]. Qed.

Lemma netket_arrays g W sample W' conn mel use : good_batch g sample -> new_netket_find_conn g W sample = Ok (W', (conn, mel, use)) ->
  arrays (estimated W') (length sample) conn /\ arrays (estimated W') (length sample) mel /\ arrays (estimated W') (length sample) use /\
  (forall m, (forall s, In s sample -> length (g s) <= m) -> estimated W <= m -> estimated W' <= m) /\
  (forall n, (forall s, In s sample -> length s = n) -> (forall s c m, In s sample -> In (c, m) (g s) -> length c = n) ->
     forall row s, In row conn -> In s row -> length s = n).
Proof.
  intros [Hne Hg]. unfold new_netket_find_conn. rewrite collect_ok by auto. cbn [bind].
  destruct (numpy_max (map (@length _) (map g sample))) as [m|] eqn:Em; [|discriminate]. cbn [bind].
  set (est := Nat.max m (estimated W)). intros E. injection E as <- <- <- <-. cbn [estimated].
  assert (R : forall A (f : nat -> list A), (forall k, length (f k) = length sample) -> arrays est (length sample) (map f (range est))).
  { intros A f Hf. split; [now rewrite map_length, range_length|]. apply Forall_forall. intros r Hr. apply in_map_iff in Hr. destruct Hr as (k & <- & _). apply Hf. }
  split; [|split; [|split; [|split]]].
  - apply R. intros k. rewrite map2_length; now rewrite !map_length.
  - apply R. intros k. now rewrite !map_length.
  - assert (U : arrays est (length sample) (if should_calc_unused W
        then map (map (fun c => negb (is_zero c))) (map (fun k => map (fun l => nth k (map snd l) C0) (map g sample)) (range est))
        else repeat (repeat true (length sample)) est)).
    { destruct (should_calc_unused W).
      - rewrite map_map. apply R. intros k. now rewrite !map_length.
      - split; [apply repeat_length|]. apply Forall_forall. intros r Hr. apply repeat_spec in Hr. subst. apply repeat_length. }
    destruct U as [U1 U2]. split; [now rewrite upd_length|]. apply Forall_forall. intros r Hr. apply (In_nth _ _ []) in Hr.
    destruct Hr as (k & Hk & <-). rewrite upd_length in Hk. rewrite Forall_forall in U2. destruct (Nat.eq_dec k 0) as [->|N].
    + rewrite nth_upd_same by exact Hk. apply repeat_length.
    + rewrite nth_upd_other by auto. apply U2. now apply nth_In.
  - intros q Hq Hw. unfold est. apply Nat.max_lub; [|exact Hw]. unfold numpy_max in Em.
    destruct (map (@length _) (map g sample)) as [|x l] eqn:El; [discriminate|]. injection Em as <-.
    assert (F : Forall (fun x => x <= q) (x :: l)).
    { rewrite <- El, map_map. apply Forall_forall. intros y Hy. apply in_map_iff in Hy. destruct Hy as (s & <- & Hs). now apply Hq. }
    exact (fold_max_le q (x :: l) F).
  - intros n Hl Hc row s Hr Hs. apply in_map_iff in Hr. destruct Hr as (k & <- & _).
    rewrite (map2_diag2 (fun z l => nth k (map fst l) z) (fun s0 => repeat 0%Z (length s0)) g) in Hs.
    apply in_map_iff in Hs. destruct Hs as (s0 & <- & H0).
    destruct (Nat.lt_ge_cases k (length (map fst (g s0)))) as [L|L].
    + assert (I := nth_In (map fst (g s0)) (repeat 0%Z (length s0)) L). apply in_map_iff in I. destruct I as ((c & m') & Ec & I).
      cbn [fst] in Ec. rewrite <- Ec. eapply Hc; eauto.
    + rewrite nth_overflow by exact L. rewrite repeat_length. now apply Hl.
Qed.

Lemma entry_column {A} (d : A) rows k b : k < length rows -> entry d rows k b = nth k (column b d rows) d.
Proof.
  intros H. unfold entry, column. rewrite (nth_indep (map (fun r => nth b r d) rows) d (nth b [] d)) by now rewrite map_length.
  now rewrite (map_nth (fun r => nth b r d)).
Qed.

Definition reported_sum (g : get_conn_fun) (s t : list Z) : C :=
  Csum (fun cm => if list_eq_dec Z.eq_dec (fst cm) t then snd cm else C0) (g s).

Lemma netket_represents n H g W declared : should_calc_unused W = true ->
  (forall s, In s (spin_configs n) -> reports_itself g s) ->
  (forall s c m, In s (spin_configs n) -> In (c, m) (g s) -> In c (spin_configs n)) ->
  (forall s t, In s (spin_configs n) -> In t (spin_configs n) -> reported_sum g s t = H s t) ->
  (forall k s, declared = Some k -> In s (spin_configs n) -> length (g s) <= k) ->
  (forall k, declared = Some k -> estimated W <= k) ->
  operator_represents n H (netket_operator g W declared).
Proof.
  intros HU HI HC HS HD HE samples NE A.
  assert (GB : good_batch g samples) by (split; [exact NE|intros s Hs; now apply HI, A]).
  destruct (netket_step g W samples GB) as (W' & conn & mel & use & E & Le & _ & Lc & Lm & Lu & Q).
  destruct (netket_arrays g W samples W' conn mel use GB E) as (R1 & R2 & R3 & R4 & R5).
  exists (estimated W'), {| conns := conn; mels := mel; uses := use |}. split.
  { cbn [find_conn netket_operator]. rewrite E. reflexivity. }
  assert (HK : 0 < estimated W').
  { destruct samples as [|s r]; [congruence|]. destruct (Q 0 s eq_refl) as (Q1 & _). destruct (HI s (A s (or_introl eq_refl))) as (m & rest & Eg).
    rewrite Eg in Q1. cbn in Q1. lia. }
  split; [exact HK|]. split; [|split].
  2: { cbn [declared_max netket_operator]. intros k Ek. apply R4; [intros s Hs; eauto|eauto]. }
  2: { cbn [conns]. apply R5; [intros s Hs; exact (proj1 (proj2 (spins_in n s) (A s Hs)))|]. intros s c m Hs Hc. apply A in Hs.
       exact (proj1 (proj2 (spins_in n c) (HC s c m Hs Hc))). }
  assert (P : forall b s k, nth_error samples b = Some s -> k < estimated W' ->
    entry [] conn k b = nth k (map fst (g s)) (repeat 0%Z (length s)) /\ entry C0 mel k b = nth k (map snd (g s)) C0 /\
    (entry false use k b = true <-> k = 0 \/ entry C0 mel k b <> C0)).
  { intros b s k Hb Hk. destruct (Q b s Hb) as (Q1 & Q2 & Q3 & Q4).
    rewrite !entry_column by lia. rewrite <- Lc in Hk. specialize (Q4 k ltac:(lia)). rewrite HU in Q4.
    split; [|split]; [| |rewrite Q4; intuition discriminate].
    - rewrite Q2. rewrite (nth_indep _ [] (repeat 0%Z (length s))).
      2: { rewrite app_length, repeat_length, map_length. lia. }
      destruct (Nat.lt_ge_cases k (length (map fst (g s)))) as [L|L]; [now rewrite app_nth1|].
      rewrite app_nth2, nth_repeat, nth_overflow by lia. reflexivity.
    - rewrite Q3. destruct (Nat.lt_ge_cases k (length (map snd (g s)))) as [L|L]; [now rewrite app_nth1|].
      rewrite app_nth2, nth_repeat, nth_overflow by lia. reflexivity. }
  split; [|split; [|split]]; cbn [conns mels uses].
  - split; [exact R1|]. split; [exact R2|exact R3].
  - intros b s Hb. cbn [conns uses]. destruct (P b s 0 Hb HK) as (P1 & _ & P3). split; [|apply P3; now left].
    rewrite P1. assert (Hs : In s samples) by (eapply nth_error_In; eauto). destruct (HI s (A s Hs)) as (m & rest & ->). reflexivity.
  - intros k b Hk Hb U. cbn [mels uses] in *. destruct (nth_error samples b) as [s|] eqn:Es; [|apply nth_error_None in Es; lia].
    destruct (P b s k Es Hk) as (_ & _ & P3). destruct (is_zero (entry C0 mel k b)) eqn:Z; [now apply is_zero_spec|].
    exfalso. assert (T : entry false use k b = true); [|congruence]. apply P3. right. intros E0. apply is_zero_spec in E0. congruence.
  - intros b s Hb. assert (Hs : In s (spin_configs n)) by (apply A; eapply nth_error_In; eauto). split.
    + intros k Hk U. destruct (P b s k Hb Hk) as (P1 & P2 & P3). apply P3 in U. rewrite P1.
      assert (L : k < length (g s)).
      { destruct U as [->|U]; [destruct (HI s Hs) as (m & rest & ->); cbn; lia|]. rewrite P2 in U.
        destruct (Nat.lt_ge_cases k (length (g s))) as [L|L]; [exact L|]. exfalso. apply U. apply nth_overflow. now rewrite map_length. }
      assert (I : In (nth k (map fst (g s)) (repeat 0%Z (length s))) (map fst (g s))) by (apply nth_In; now rewrite map_length).
      apply in_map_iff in I. destruct I as ((c & m) & Ec & I). cbn [fst] in Ec. rewrite <- Ec. now apply (HC s c m).
    + intros t Ht. rewrite <- (HS s t Hs Ht). unfold reported_sum. destruct (Q b s Hb) as (Q1 & _).
      rewrite (Csum_ext _ (fun k => if list_eq_dec Z.eq_dec (nth k (map fst (g s)) (repeat 0%Z (length s))) t then nth k (map snd (g s)) C0 else C0)).
      2: { intros k Hk. apply in_seq in Hk. destruct (P b s k Hb ltac:(lia)) as (P1 & P2 & P3). rewrite P1, <- P2.
           destruct (entry false use k b) eqn:U; [reflexivity|]. destruct (list_eq_dec Z.eq_dec _ t); [|reflexivity].
           destruct (is_zero (entry C0 mel k b)) eqn:Z; [symmetry; now apply is_zero_spec|].
           exfalso. assert (T : false = true); [|discriminate]. apply P3. right. intros E0. apply is_zero_spec in E0. congruence. }
      replace (estimated W') with (length (g s) + (estimated W' - length (g s))) by lia. rewrite seq_app, Csum_app. cbn [Nat.add].
      rewrite (Csum_ext _ (fun _ => C0) (seq (length (g s)) _)).
      2: { intros k Hk. apply in_seq in Hk. rewrite (nth_overflow (map snd (g s))) by (rewrite map_length; lia). now destruct (list_eq_dec Z.eq_dec _ t). }
      rewrite Csum_zero by auto.
      rewrite (Csum_ext _ (fun k => if list_eq_dec Z.eq_dec (fst (nth k (g s) ([], C0))) t then snd (nth k (g s) ([], C0)) else C0)).
      2: { intros k Hk. apply in_seq in Hk.
           pose proof (map_nth snd (g s) (@nil Z, C0) k) as Q5. pose proof (map_nth fst (g s) (@nil Z, C0) k) as Q6. cbn [fst snd] in Q5, Q6.
           rewrite (nth_indep (map fst (g s)) _ []) by (rewrite map_length; lia). now rewrite Q5, Q6. }
      change (seq 0 (length (g s))) with (range (length (g s))).
      rewrite (Csum_range_app (fun cm => if list_eq_dec Z.eq_dec (fst cm) t then snd cm else C0) (g s) ([], C0)). csolve.
Qed.

(** * The bond operators *)
Ltac cells := repeat match goal with |- _ :: _ = _ :: _ => apply f_equal2 end; try reflexivity; csolve.
Lemma scaled_interaction r : matrix_scale r interaction =
  [[RtoC r; C0; C0; C0]; [C0; RtoC (- r); RtoC (2 * r); C0]; [C0; RtoC (2 * r); RtoC (- r); C0]; [C0; C0; C0; RtoC r]].
Proof. unfold interaction, kron, matrix_add, sigmaz, sigmax, sigmay, matrix_scale. cbn [map flat_map app map2]. cells. Qed.

Definition swapped (s : list Z) (i j : nat) : list Z := upd (upd s i (spin s j)) j (spin s i).

Lemma is_zero_C0 : is_zero C0 = true.
Proof. now apply is_zero_spec. Qed.
Lemma is_zero_real r : is_zero (RtoC (2 * r)) = if Req_EM_T r 0 then true else false.
Proof.
  destruct (Req_EM_T r 0) as [->|N].
  - apply is_zero_spec. unfold RtoC, C0. f_equal. ring.
  - apply not_true_is_false. intros E. apply is_zero_spec in E. injection E as E. apply N. lra.
Qed.

Lemma spin_values n s i : spins n s -> i < n -> spin s i = 1%Z \/ spin s i = (-1)%Z.
Proof. intros [L F] H. rewrite Forall_forall in F. apply F. apply nth_In. lia. Qed.

Lemma bond_conn n s i j r : spins n s -> i < n -> j < n ->
  term_conn s (i, j, matrix_scale r interaction) =
    (if (spin s i =? spin s j)%Z then [] else if Req_EM_T r 0 then [] else [(swapped s i j, RtoC (2 * r))]) /\
  element (matrix_scale r interaction) (state_number (spin s i) (spin s j)) (state_number (spin s i) (spin s j)) = RtoC (r * IZR (spin s i * spin s j)).
Proof.
  intros Hs Hi Hj. rewrite scaled_interaction. unfold term_conn, swapped. cbv zeta. unfold spin at 1 2.
  change (nth i s 0%Z) with (spin s i). change (nth j s 0%Z) with (spin s j).
  destruct (spin_values n s i Hs Hi) as [E1|E1], (spin_values n s j Hs Hj) as [E2|E2]; rewrite E1, E2.
  all: match goal with |- context [state_number ?a ?b] => let k := eval vm_compute in (state_number a b) in change (state_number a b) with k end.
  all: change (range 4) with [0; 1; 2; 3]; unfold element; cbn [flat_map nth Nat.eqb orb Z.eqb Pos.eqb app]; rewrite ?is_zero_C0, ?is_zero_real; cbn [app].
  all: split; [|unfold RtoC; apply f_equal2; [|reflexivity]; rewrite mult_IZR; ring].
  all: try reflexivity.
  all: destruct (Req_EM_T r 0); reflexivity.
Qed.

Lemma Csum_nil {A} (f : A -> C) : Csum f [] = C0.
Proof. reflexivity. Qed.

(** Edges between two different sites below [n], coloured 1 or 2. *)
Definition edges_ok (n : nat) (edges : list edge) : Prop :=
  Forall (fun e => let '(i, j, c) := e in i < n /\ j < n /\ i <> j /\ (c = 1 \/ c = 2)) edges.

Lemma terms_of_edges n j2 edges : edges_ok n edges ->
  graph_terms edges (bond_operators j2) = map (fun e => let '(i, j, c) := e in (i, j, matrix_scale (coupling j2 c) interaction)) edges.
Proof.
  unfold graph_terms. induction 1 as [|[[i j] c] edges (_ & _ & _ & Hc) F IH]; [reflexivity|]. cbn [flat_map map]. rewrite IH.
  destruct Hc as [-> | ->]; reflexivity.
Qed.

Lemma swapped_exchanged n s t i j : length s = n -> i < n -> j < n ->
  (if list_eq_dec Z.eq_dec (swapped s i j) t then true else false) = exchanged i j s t.
Proof.
  intros L Hi Hj. pose proof (HeisenbergProofs.exchanged_iff i j s t ltac:(lia) ltac:(lia)) as E. fold (swapped s i j) in E.
  destruct (list_eq_dec Z.eq_dec (swapped s i j) t) as [Q|Q], (exchanged i j s t); intuition congruence.
Qed.

Lemma bond_sum_element n s t i j c j2 : spins n s -> i < n -> j < n -> i <> j ->
  ((if list_eq_dec Z.eq_dec s t then RtoC (coupling j2 c * IZR (spin s i * spin s j)) else C0) +
   Csum (fun cm => if list_eq_dec Z.eq_dec (fst cm) t then snd cm else C0) (term_conn s (i, j, matrix_scale (coupling j2 c) interaction)))%C =
  RtoC (coupling j2 c * IZR (heisenberg_element 2 [(i, j)] s t)).
Proof.
  intros Hs Hi Hj N. destruct (bond_conn n s i j (coupling j2 c) Hs Hi Hj) as [-> _]. unfold heisenberg_element. cbn [Zsum fold_right fst snd].
  rewrite <- (swapped_exchanged n s t i j (proj1 Hs) Hi Hj).
  set (r := coupling j2 c). rewrite plus_IZR.
  destruct (spin s i =? spin s j)%Z; cbn [negb andb].
  - rewrite Csum_nil. destruct (list_eq_dec Z.eq_dec s t); unfold RtoC, C0, Cplus; cbn [fst snd]; apply f_equal2; rewrite ?Z.add_0_r; ring.
  - destruct (Req_EM_T r 0) as [R0|R0].
    + rewrite Csum_nil, R0. destruct (list_eq_dec Z.eq_dec s t); unfold RtoC, C0, Cplus; cbn [fst snd]; apply f_equal2; ring.
    + rewrite Csum_cons, Csum_nil. cbn [fst snd].
      destruct (list_eq_dec Z.eq_dec s t), (list_eq_dec Z.eq_dec (swapped s i j) t); unfold RtoC, C0, Cplus; cbn [fst snd]; apply f_equal2; rewrite ?Z.add_0_r; ring.
Qed.

Lemma graph_sum n edges j2 s t : edges_ok n edges -> spins n s ->
  reported_sum (graph_get_conn (graph_terms edges (bond_operators j2))) s t =
  RtoC (Rsum (fun e => let '(i, j, colour) := e in (coupling j2 colour * IZR (heisenberg_element 2 [(i, j)] s t))%R) edges).
Proof.
  intros F Hs. rewrite (terms_of_edges n) by exact F. unfold reported_sum, graph_get_conn. rewrite Csum_cons, Csum_flat_map. cbn [fst snd].
  rewrite !Csum_map, <- Csum_RtoC.
  transitivity (Csum (fun e => let '(i, j, c) := e in
    ((if list_eq_dec Z.eq_dec s t then RtoC (coupling j2 c * IZR (spin s i * spin s j)) else C0) +
     Csum (fun cm => if list_eq_dec Z.eq_dec (fst cm) t then snd cm else C0) (term_conn s (i, j, matrix_scale (coupling j2 c) interaction)))%C) edges).
  - unfold edges_ok in F. induction F as [|[[i j] c] edges (Hi & Hj & N & Hc) F IH].
    { rewrite !Csum_nil. destruct (list_eq_dec Z.eq_dec s t); csolve. }
    rewrite !Csum_cons, <- IH. destruct (bond_conn n s i j (coupling j2 c) Hs Hi Hj) as [_ D]. unfold spin at 1 2 3 4 in D. rewrite D.
    destruct (list_eq_dec Z.eq_dec s t); csolve.
  - apply Csum_ext. intros [[i j] c] He. unfold edges_ok in F. rewrite Forall_forall in F. destruct (F _ He) as (Hi & Hj & N & _).
    exact (bond_sum_element n s t i j c j2 Hs Hi Hj N).
Qed.

Lemma swapped_spins n s i j : spins n s -> i < n -> j < n -> spins n (swapped s i j).
Proof.
  intros [L F] Hi Hj. unfold swapped. split; [now rewrite !upd_length|].
  assert (U : forall l k v, Forall is_spin l -> is_spin v -> Forall is_spin (upd l k v)).
  { intros l k v Fl Hv. apply Forall_forall. intros x Hx. apply (In_nth _ _ 0%Z) in Hx. destruct Hx as (q & Hq & <-). rewrite upd_length in Hq.
    rewrite Forall_forall in Fl. destruct (Nat.eq_dec q k) as [->|N]; [now rewrite nth_upd_same|]. rewrite nth_upd_other by auto. apply Fl. now apply nth_In. }
  rewrite Forall_forall in F. apply U; [apply U|]; [now apply Forall_forall| |]; apply F; apply nth_In; lia.
Qed.

Lemma graph_conns n edges j2 s : edges_ok n edges -> spins n s ->
  let g := graph_get_conn (graph_terms edges (bond_operators j2)) in
  exists m, g s = (s, m) :: flat_map (fun e => let '(i, j, c) := e in
    if (spin s i =? spin s j)%Z then [] else if Req_EM_T (coupling j2 c) 0 then [] else [(swapped s i j, RtoC (2 * coupling j2 c))]) edges.
Proof.
  intros F Hs g. unfold g. rewrite (terms_of_edges n) by exact F. unfold graph_get_conn. eexists. f_equal. rewrite flat_map_concat_map, map_map, flat_map_concat_map.
  f_equal. apply map_ext_in. intros [[i j] c] He. unfold edges_ok in F. rewrite Forall_forall in F. destruct (F _ He) as (Hi & Hj & _).
  exact (proj1 (bond_conn n s i j (coupling j2 c) Hs Hi Hj)).
Qed.

(** * The edges of the grid *)
Lemma lattice_edges_ok L1 L2 pbc : 0 < L1 -> 0 < L2 -> (pbc = true -> 3 <= L1 /\ 3 <= L2) -> edges_ok (L1 * L2) (lattice_edges L1 L2 pbc).
Proof.
  intros H1 H2 HP. apply Forall_forall. intros [[i j] c] He. apply flat_map_bond_in in He. destruct He as (h & w & d & Hh & Hw & Hd & He).
  destruct d as [[dh dw] col]. unfold bond_from in He.
  assert (D : (dh = 0 /\ dw = 1 \/ dh = 1 /\ dw = 0 \/ dh = 1 /\ dw = 1 \/ dh = -1 /\ dw = 1)%Z /\ (col = 1 \/ col = 2)).
  { unfold directions in Hd. cbn [In] in Hd. intuition (try congruence); match goal with E : (_, _, _) = (_, _, _) |- _ => injection E; intros; subst; lia end. }
  destruct D as [D Dc].
  destruct (pbc || inside_grid L1 L2 (Z.of_nat h + dh) (Z.of_nat w + dw))%bool eqn:B; [|contradiction].
  destruct He as [He|[]]. injection He as <- <- <-.
  assert (M1 := Z.mod_pos_bound (Z.of_nat h + dh) (Z.of_nat L1) ltac:(lia)).
  assert (M2 := Z.mod_pos_bound (Z.of_nat w + dw) (Z.of_nat L2) ltac:(lia)).
  assert (LT : forall a b, (0 <= a < Z.of_nat L1)%Z -> (0 <= b < Z.of_nat L2)%Z -> site_number L2 a b < L1 * L2).
  { intros a b Ha Hb. unfold site_number. nia. }
  split; [apply LT; lia|]. split; [now apply LT|]. split; [|exact Dc].
  intros E. apply site_number_inj in E; try lia. destruct E as [E1 E2].
  destruct pbc.
  - destruct (HP eq_refl) as [P1 P2].
    destruct (mod_diff (Z.of_nat h + dh) (Z.of_nat h) (Z.of_nat L1) ltac:(lia)) as [k1 K1].
    { rewrite <- E1. symmetry. apply Z.mod_small. lia. }
    destruct (mod_diff (Z.of_nat w + dw) (Z.of_nat w) (Z.of_nat L2) ltac:(lia)) as [k2 K2].
    { rewrite <- E2. symmetry. apply Z.mod_small. lia. }
    assert (dh = 0)%Z by (apply (small_multiple dh k1 (Z.of_nat L1)); lia).
    assert (dw = 0)%Z by (apply (small_multiple dw k2 (Z.of_nat L2)); lia). lia.
  - cbn [orb] in B. unfold inside_grid in B. rewrite !andb_true_iff, !Z.leb_le, !Z.ltb_lt in B.
    rewrite Z.mod_small in E1, E2 by lia. lia.
Qed.

Lemma edges_ok_perm n l l' : Permutation l l' -> edges_ok n l -> edges_ok n l'.
Proof. intros P F. unfold edges_ok in *. rewrite Forall_forall in *. intros e He. apply F. now apply (Permutation_in _ (Permutation_sym P)). Qed.

Lemma grid_positive L1 L2 : 1 < L1 * L2 -> 0 < L1 /\ 0 < L2.
Proof. nia. Qed.

Lemma edge_colors_ok L1 L2 pbc : j1j2_grid L1 L2 pbc -> edges_ok (L1 * L2) (edge_colors L1 L2 pbc).
Proof.
  intros [H HP]. destruct (grid_positive _ _ H). apply (edges_ok_perm _ (lattice_edges L1 L2 pbc)); [apply Permutation_sym; now apply edges_perm|].
  now apply lattice_edges_ok.
Qed.

Lemma graph_sites_le n edges : edges_ok n edges -> graph_sites edges <= n.
Proof. unfold graph_sites. induction 1 as [|[[i j] c] edges (Hi & Hj & _) F IH]; cbn [fold_right]; lia. Qed.
Lemma graph_sites_ge edges i j c : In (i, j, c) edges -> S j <= graph_sites edges.
Proof.
  unfold graph_sites. induction edges as [|[[i' j'] c'] edges IH]; [intros []|]. cbn [fold_right]. intros [E|H]; [injection E as -> -> ->; lia|].
  specialize (IH H). lia.
Qed.

Lemma bond_listed L1 L2 pbc h w d e : h < L1 -> w < L2 -> In d directions -> In e (bond_from L1 L2 pbc h w d) -> In e (lattice_edges L1 L2 pbc).
Proof.
  intros Hh Hw Hd He. unfold lattice_edges. apply in_flat_map. exists h. split; [apply in_seq; lia|]. apply in_flat_map. exists w.
  split; [apply in_seq; lia|]. apply in_flat_map. exists d. now split.
Qed.

Lemma last_site_listed L1 L2 pbc : j1j2_grid L1 L2 pbc -> exists i c, In (i, L1 * L2 - 1, c) (lattice_edges L1 L2 pbc).
Proof.
  intros [H HP]. destruct (grid_positive _ _ H) as [H1 H2].
  assert (E : forall h w dh dw c, h < L1 -> w < L2 -> In (dh, dw, c) directions -> (Z.of_nat h + dh = Z.of_nat L1 - 1)%Z -> (Z.of_nat w + dw = Z.of_nat L2 - 1)%Z ->
    exists i, In (i, L1 * L2 - 1, c) (lattice_edges L1 L2 pbc)).
  { intros h w dh dw c Hh Hw Hd E1 E2. exists (site_number L2 (Z.of_nat h) (Z.of_nat w)). apply (bond_listed L1 L2 pbc h w (dh, dw, c)); auto.
    unfold bond_from. rewrite E1, E2. replace (inside_grid L1 L2 (Z.of_nat L1 - 1) (Z.of_nat L2 - 1)) with true.
    2: { symmetry. unfold inside_grid. rewrite !andb_true_iff, !Z.leb_le, !Z.ltb_lt. lia. }
    rewrite orb_true_r. left. rewrite !Z.mod_small by lia. apply f_equal2; [|reflexivity]. apply f_equal2; [reflexivity|]. unfold site_number. nia. }
  destruct (Nat.le_gt_cases 2 L2) as [G|G].
  - destruct (E (L1 - 1) (L2 - 2) 0%Z 1%Z 1) as [i I]; try lia; [left; reflexivity|]. eauto.
  - destruct (E (L1 - 2) (L2 - 1) 1%Z 0%Z 1) as [i I]; try nia; [right; left; reflexivity|]. eauto.
Qed.

Lemma sites_of_graph L1 L2 pbc : j1j2_grid L1 L2 pbc -> graph_sites (edge_colors L1 L2 pbc) = L1 * L2.
Proof.
  intros G. assert (U := graph_sites_le _ _ (edge_colors_ok L1 L2 pbc G)). destruct (last_site_listed L1 L2 pbc G) as (i & c & I).
  destruct G as [H HP]. destruct (grid_positive _ _ H) as [H1 H2].
  apply (Permutation_in _ (Permutation_sym (edges_perm L1 L2 pbc H1 H2))) in I. apply graph_sites_ge in I. lia.
Qed.

(** * The operator *)
Lemma j1j2_conns L1 L2 j2 pbc s : j1j2_grid L1 L2 pbc -> spins (L1 * L2) s ->
  exists m, j1j2_get_conn L1 L2 j2 pbc s = (s, m) :: flat_map (fun e => let '(i, j, c) := e in
    if (spin s i =? spin s j)%Z then [] else if Req_EM_T (coupling j2 c) 0 then [] else [(swapped s i j, RtoC (2 * coupling j2 c))]) (edge_colors L1 L2 pbc).
Proof. intros G Hs. exact (graph_conns (L1 * L2) (edge_colors L1 L2 pbc) j2 s (edge_colors_ok L1 L2 pbc G) Hs). Qed.

Lemma j1j2_conns_length L1 L2 j2 pbc s : j1j2_grid L1 L2 pbc -> spins (L1 * L2) s ->
  length (j1j2_get_conn L1 L2 j2 pbc s) <= 1 + length (edge_colors L1 L2 pbc).
Proof.
  intros G Hs. destruct (j1j2_conns L1 L2 j2 pbc s G Hs) as (m & ->). cbn [length]. apply le_n_S.
  pose proof (flat_map_length_le (fun e => let '(i, j, c) := e in
    if (spin s i =? spin s j)%Z then [] else if Req_EM_T (coupling j2 c) 0 then [] else [(swapped s i j, RtoC (2 * coupling j2 c))]) 1 (edge_colors L1 L2 pbc)) as L.
  rewrite Nat.mul_1_l in L || rewrite Nat.mul_1_r in L. apply L. intros [[i j] c] _. destruct (spin s i =? spin s j)%Z; [cbn; lia|]. destruct (Req_EM_T _ 0); cbn; lia.
Qed.

Lemma filter_perm_length {A} (f : A -> bool) l l' : Permutation l l' -> length (filter f l) = length (filter f l').
Proof.
  induction 1 as [|x l l' P IH|x y l|]; cbn [filter]; try congruence.
  - destruct (f x); cbn [length]; congruence.
  - destruct (f x), (f y); reflexivity.
Qed.

Lemma j1j2_count L1 L2 j2 pbc s : j1j2_grid L1 L2 pbc -> j2 <> 0%R -> spins (L1 * L2) s ->
  length (j1j2_get_conn L1 L2 j2 pbc s) = 1 + opposite_bonds L1 L2 pbc s.
Proof.
  intros G N Hs. destruct (j1j2_conns L1 L2 j2 pbc s G Hs) as (m & ->). cbn [length Nat.add]. f_equal. unfold opposite_bonds.
  destruct G as [H HP]. destruct (grid_positive _ _ H) as [H1 H2].
  assert (P := edges_perm L1 L2 pbc H1 H2).
  transitivity (length (filter (fun e : edge => negb (spin s (fst (fst e)) =? spin s (snd (fst e)))%Z) (edge_colors L1 L2 pbc))).
  - assert (N' : forall c, coupling j2 c <> 0%R) by (intros c; unfold coupling; destruct (c =? 1); [lra|exact N]).
    generalize (edge_colors L1 L2 pbc). clear - N'. induction l as [|[[i j] c] l IH]; [reflexivity|]. cbn [flat_map filter fst snd]. rewrite app_length, IH.
    destruct (spin s i =? spin s j)%Z; cbn [negb length]; [reflexivity|]. destruct (Req_EM_T (coupling j2 c) 0) as [E|E]; [now apply N' in E|reflexivity].
  - now apply filter_perm_length.
Qed.

Lemma j1j2_row L1 L2 j2 pbc s t : j1j2_grid L1 L2 pbc -> spins (L1 * L2) s ->
  reported_sum (j1j2_get_conn L1 L2 j2 pbc) s t = j1j2_matrix L1 L2 j2 pbc s t.
Proof.
  intros G Hs. unfold j1j2_get_conn. rewrite (graph_sum (L1 * L2)) by auto using edge_colors_ok. unfold j1j2_matrix. f_equal.
  apply Rsum_perm. destruct G as [H HP]. destruct (grid_positive _ _ H). now apply edges_perm.
Qed.

Lemma j1j2_reports L1 L2 j2 pbc s : reports_itself (j1j2_get_conn L1 L2 j2 pbc) s.
Proof. unfold j1j2_get_conn, graph_get_conn. eexists _, _. reflexivity. Qed.

Lemma j1j2_connected L1 L2 j2 pbc s c m : j1j2_grid L1 L2 pbc -> spins (L1 * L2) s -> In (c, m) (j1j2_get_conn L1 L2 j2 pbc s) -> spins (L1 * L2) c.
Proof.
  intros G Hs I. assert (F := edge_colors_ok L1 L2 pbc G). destruct (j1j2_conns L1 L2 j2 pbc s G Hs) as (m0 & E). rewrite E in I. destruct I as [I|I].
  - injection I as <- _. exact Hs.
  - apply in_flat_map in I. destruct I as ([[i j] k] & He & I). unfold edges_ok in F. rewrite Forall_forall in F. destruct (F _ He) as (Hi & Hj & _).
    destruct (spin s i =? spin s j)%Z; [contradiction|]. destruct (Req_EM_T (coupling j2 k) 0); [contradiction|]. destruct I as [I|[]].
    injection I as <- _. now apply swapped_spins.
Qed.

Lemma new_j1j2_ok L1 L2 j2 pbc : j1j2_grid L1 L2 pbc ->
  exists m, j1j2_max_conn [L1; L2] = Ok m /\ 1 + length (edge_colors L1 L2 pbc) <= m /\
    new_j1j2 [L1; L2] j2 pbc = Ok (j1j2_get_conn L1 L2 j2 pbc, {| estimated := m; should_calc_unused := true |}).
Proof.
  intros G. assert (S := sites_of_graph L1 L2 pbc G). destruct G as [H HP]. destruct (grid_positive _ _ H) as [H1 H2].
  destruct (edges_count L1 L2 pbc H1 H2) as (m & E & L). exists m. split; [exact E|]. split; [lia|].
  unfold new_j1j2. rewrite E. cbn [bind]. rewrite S. cbn [fold_right]. rewrite Nat.mul_1_r, Nat.eqb_refl. reflexivity.
Qed.

Lemma j1j2_calls L1 L2 j2 pbc m batches : j1j2_grid L1 L2 pbc -> 1 + length (edge_colors L1 L2 pbc) <= m ->
  (forall b, In b batches -> b <> [] /\ forall s, In s b -> In s (spin_configs (L1 * L2))) ->
  let W := {| estimated := m; should_calc_unused := true |} in netket_calls (j1j2_get_conn L1 L2 j2 pbc) W batches = Ok W.
Proof.
  intros G L HB W. induction batches as [|b t IH]; [reflexivity|]. cbn [netket_calls].
  destruct (HB b (or_introl eq_refl)) as [NE A].
  assert (GB : good_batch (j1j2_get_conn L1 L2 j2 pbc) b) by (split; [exact NE|intros; apply j1j2_reports]).
  destruct (netket_step _ W b GB) as (W' & conn & mel & use & E & Le & U & _). rewrite E. cbn [bind fst].
  destruct (netket_arrays _ _ _ _ _ _ _ GB E) as (_ & _ & _ & R4 & _).
  assert (Q : estimated W' <= m).
  { apply R4; [|reflexivity]. intros s Hs. etransitivity; [|exact L]. apply j1j2_conns_length; [exact G|]. apply spins_in. now apply A. }
  replace W' with W; [apply IH; intros; apply HB; now right|]. destruct W' as [e u]. cbn in *. unfold W. f_equal; [lia|congruence].
Qed.

Lemma j1j2_represents L1 L2 j2 pbc m : j1j2_grid L1 L2 pbc -> j1j2_max_conn [L1; L2] = Ok m -> 1 + length (edge_colors L1 L2 pbc) <= m ->
  operator_represents (L1 * L2) (j1j2_matrix L1 L2 j2 pbc)
    (j1j2_operator [L1; L2] (j1j2_get_conn L1 L2 j2 pbc) {| estimated := m; should_calc_unused := true |}).
Proof.
  intros G E L. unfold j1j2_operator. rewrite E. apply netket_represents; [reflexivity| | | | |].
  - intros s _. apply j1j2_reports.
  - intros s c q Hs I. apply spins_in. apply spins_in in Hs. eapply j1j2_connected; eauto.
  - intros s t Hs Ht. apply j1j2_row; [exact G|]. now apply spins_in.
  - intros k s Ek Hs. injection Ek as <-. etransitivity; [|exact L]. apply j1j2_conns_length; [exact G|]. now apply spins_in.
  - intros k Ek. injection Ek as <-. cbn. lia.
Qed.

(** * Symmetry of the matrix and the conserved magnetisation *)
Lemma element_ok L1 L2 j2 pbc n (F : edges_ok n (lattice_edges L1 L2 pbc)) s t s' t' :
  (forall i j, i < n -> j < n -> i <> j -> heisenberg_element 2 [(i, j)] s t = heisenberg_element 2 [(i, j)] s' t') ->
  j1j2_matrix L1 L2 j2 pbc s t = j1j2_matrix L1 L2 j2 pbc s' t'.
Proof.
  intros H. unfold j1j2_matrix. f_equal. apply Rsum_ext. intros [[i j] c] He. unfold edges_ok in F. rewrite Forall_forall in F.
  destruct (F _ He) as (Hi & Hj & N & _). now rewrite (H i j Hi Hj N).
Qed.

Lemma grid_edges_ok L1 L2 pbc : j1j2_grid L1 L2 pbc -> edges_ok (L1 * L2) (lattice_edges L1 L2 pbc).
Proof. intros [H HP]. destruct (grid_positive _ _ H). now apply lattice_edges_ok. Qed.

Lemma j1j2_hermitian L1 L2 j2 pbc : j1j2_grid L1 L2 pbc -> hermitian (L1 * L2) (j1j2_matrix L1 L2 j2 pbc).
Proof.
  intros G s t Hs Ht. unfold j1j2_matrix at 2. rewrite Cconj_RtoC. fold (j1j2_matrix L1 L2 j2 pbc t s).
  apply spins_in in Hs. apply spins_in in Ht. apply (element_ok L1 L2 j2 pbc _ (grid_edges_ok L1 L2 pbc G)).
  intros i j Hi Hj N. apply (heisenberg_symmetric 2 (L1 * L2)); [|apply Hs|apply Ht]. constructor; [cbn; auto|constructor].
Qed.

Lemma sumZ_upd l i v : i < length l -> sumZ (upd l i v) = (sumZ l - nth i l 0 + v)%Z.
Proof.
  revert i. induction l as [|a l IH]; intros [|i] H; cbn [length] in H; try lia; cbn [upd nth]; unfold sumZ in *; cbn [fold_right].
  - lia.
  - rewrite IH by lia. lia.
Qed.
Lemma sumZ_swapped n s i j : length s = n -> i < n -> j < n -> i <> j -> sumZ (swapped s i j) = sumZ s.
Proof.
  intros L Hi Hj N. unfold swapped. rewrite sumZ_upd by (rewrite upd_length; lia). rewrite nth_upd_other by auto. rewrite sumZ_upd by lia. unfold spin. lia.
Qed.

Lemma j1j2_conserves L1 L2 j2 pbc s t : j1j2_grid L1 L2 pbc -> spins (L1 * L2) s -> sumZ s <> sumZ t -> j1j2_matrix L1 L2 j2 pbc s t = C0.
Proof.
  intros G Hs N. unfold j1j2_matrix. change C0 with (RtoC 0). f_equal. rewrite (Rsum_ext _ (fun _ => 0%R)); [apply Rsum_zero|].
  intros [[i j] c] He. assert (F := grid_edges_ok L1 L2 pbc G). unfold edges_ok in F. rewrite Forall_forall in F. destruct (F _ He) as (Hi & Hj & Nij & _).
  replace (heisenberg_element 2 [(i, j)] s t) with 0%Z; [ring|]. unfold heisenberg_element. cbn [Zsum fold_right fst snd].
  destruct (list_eq_dec Z.eq_dec s t) as [->|_]; [congruence|]. rewrite <- (swapped_exchanged (L1 * L2) s t i j (proj1 Hs) Hi Hj).
  destruct (list_eq_dec Z.eq_dec (swapped s i j) t) as [<-|_]; [|rewrite andb_false_r; reflexivity].
  exfalso. apply N. symmetry. now apply (sumZ_swapped (L1 * L2)); [apply Hs| | |].
Qed.
