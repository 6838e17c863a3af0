(** Lemmas on the total spin. *)
From Coq Require Import List ZArith Lia Bool Arith Reals Lra Permutation.
From Verif Require Import Base Cplx LatticeSpec HeisenbergProofs AutoregressiveSpec ObservableModel ObservableSpec ObservableProofs ExactModel ExactSpec ExactProofs
  ExactOperatorProofs J1J2Model J1J2Spec NetketModel NetketProofs J1J2OperatorModel J1J2OperatorProofs RotationProofs TotalSpinModel TotalSpinSpec.
Import ListNotations.
Local Open Scope nat_scope.

(** * The operator of the example *)
Lemma interaction_scaled : interaction = matrix_scale 1 interaction.
Proof. rewrite scaled_interaction. unfold interaction, kron, matrix_add, sigmaz, sigmax, sigmay. cbn [map flat_map app map2]. cells. Qed.

Lemma self_terms shape : graph_terms (self_edges shape) [(1, interaction)] = map (fun i => (i, i, matrix_scale 1 interaction)) (range (sites_of shape)).
Proof.
  rewrite <- interaction_scaled. unfold graph_terms, self_edges, sites_of. induction (range (fold_right Nat.mul 1 shape)) as [|i l IH]; [reflexivity|].
  cbn [map flat_map fst snd Nat.eqb app]. f_equal. exact IH.
Qed.

Lemma self_conn shape s : spins (sites_of shape) s -> total_spin_get_conn shape s = [(s, RtoC (INR (sites_of shape)))].
Proof.
  intros Hs. unfold total_spin_get_conn. rewrite self_terms. unfold graph_get_conn.
  assert (A : forall l, (forall i, In i l -> i < sites_of shape) ->
    Csum (fun t : nat * nat * matrix => let '(i, j, m) := t in let k := state_number (nth i s 0%Z) (nth j s 0%Z) in element m k k) (map (fun i => (i, i, matrix_scale 1 interaction)) l)
      = RtoC (INR (length l)) /\ flat_map (term_conn s) (map (fun i => (i, i, matrix_scale 1 interaction)) l) = []).
  { induction l as [|i l IH]; intros H; [split; reflexivity|]. cbn [map flat_map]. rewrite Csum_cons. destruct IH as [I1 I2]; [intros; apply H; now right|]. cbv zeta in I1. cbv zeta. rewrite I1, I2. clear I1 I2.
    assert (Hi : i < sites_of shape) by (apply H; now left). destruct (bond_conn (sites_of shape) s i i 1 Hs Hi Hi) as [-> E]. rewrite Z.eqb_refl.
    unfold spin at 1 2 3 4 in E. cbv zeta. rewrite E, (spin_square _ s i Hs Hi). split; [|reflexivity]. cbn [length]. rewrite S_INR. unfold RtoC, Cplus. cbn [fst snd]. f_equal; ring. }
  cbv zeta in A. destruct (A (range (sites_of shape))) as [-> ->]; [intros i Hi; unfold range in Hi; apply in_seq in Hi; lia|]. unfold range. now rewrite seq_length.
Qed.

Lemma self_sites shape : graph_sites (self_edges shape) = sites_of shape.
Proof.
  unfold self_edges, sites_of. generalize (fold_right Nat.mul 1 shape). intros n. unfold range.
  assert (A : forall k a, graph_sites (map (fun i => (i, i, 1)) (seq a k)) = if k =? 0 then 0 else a + k).
  { induction k as [|k IH]; intros a; [reflexivity|]. cbn [seq map graph_sites fold_right]. unfold graph_sites in IH. rewrite IH. destruct k; cbn [Nat.eqb]; lia. }
  rewrite A. destruct n; cbn [Nat.eqb]; lia.
Qed.

Lemma new_total_spin_ok shape r : In r (spin_configs (sites_of shape)) ->
  new_total_spin shape r = Ok (total_spin_get_conn shape, {| estimated := 1; should_calc_unused := false |}).
Proof.
  intros Hr. apply spins_in in Hr. unfold new_total_spin. rewrite self_sites. unfold sites_of at 1. rewrite Nat.eqb_refl. unfold netket_init.
  rewrite self_conn by assumption. reflexivity.
Qed.

Lemma self_calls shape u samples : (forall s, In s samples -> In s (spin_configs (sites_of shape))) -> samples <> [] ->
  new_netket_find_conn (total_spin_get_conn shape) {| estimated := 1; should_calc_unused := u |} samples =
  Ok ({| estimated := 1; should_calc_unused := u |}, ([samples], [map (fun _ => RtoC (INR (sites_of shape))) samples], [map (fun _ => true) samples])).
Proof.
  intros A NE. unfold new_netket_find_conn.
  assert (E : collect (total_spin_get_conn shape) samples = Ok (map (fun s => [(s, RtoC (INR (sites_of shape)))]) samples)).
  { clear NE. induction samples as [|s l IH]; [reflexivity|]. cbn [collect map]. rewrite self_conn by (apply spins_in, A; now left). cbn [check_first].
    destruct (list_eq_dec Z.eq_dec s s) as [_|N]; [|congruence]. cbn [bind]. rewrite IH by (intros; apply A; now right). reflexivity. }
  rewrite E. cbn [bind]. assert (L : numpy_max (map (@length (list Z * C)) (map (fun s => [(s, RtoC (INR (sites_of shape)))]) samples)) = Ok 1).
  { rewrite map_map. destruct samples as [|s l]; [congruence|]. unfold numpy_max. cbn [map length]. f_equal. cbn [fold_right].
    clear. induction l as [|x l IH]; [reflexivity|]. cbn [map fold_right length]. lia. }
  rewrite L. cbn [bind estimated should_calc_unused]. change (Nat.max 1 1) with 1. change (range 1) with [0]. cbn [map].
  assert (E1 : map2 (fun z (l : list (list Z * C)) => nth 0 (map fst l) z) (map (fun s : list Z => repeat 0%Z (length s)) samples)
    (map (fun s => [(s, RtoC (INR (sites_of shape)))]) samples) = samples).
  { clear. induction samples as [|s l IH]; [reflexivity|]. cbn [map map2]. rewrite IH. reflexivity. }
  rewrite E1, map_map. cbn [map nth snd]. do 4 f_equal. destruct u; cbn [upd repeat map]; f_equal; clear; induction samples as [|s l IH]; cbn [length repeat map]; congruence.
Qed.

Lemma self_history shape u batches : (forall b, In b batches -> b <> [] /\ forall s, In s b -> In s (spin_configs (sites_of shape))) ->
  let W := {| estimated := 1; should_calc_unused := u |} in netket_calls (total_spin_get_conn shape) W batches = Ok W.
Proof.
  intros H W. induction batches as [|b t IH]; [reflexivity|]. cbn [netket_calls]. destruct (H b (or_introl eq_refl)) as [NE A]. unfold W. rewrite self_calls by assumption.
  cbn [bind fst]. apply IH. intros; apply H; now right.
Qed.

Lemma self_represents shape u : operator_represents (sites_of shape) (scalar_matrix (INR (sites_of shape)))
  (total_spin_operator (total_spin_get_conn shape) {| estimated := 1; should_calc_unused := u |}).
Proof.
  intros samples NE A. exists 1, {| conns := [samples]; mels := [map (fun _ => RtoC (INR (sites_of shape))) samples]; uses := [map (fun _ => true) samples] |}.
  split; [cbn [find_conn total_spin_operator netket_operator]; now rewrite self_calls|]. split; [lia|]. split; [|split].
  2: { intros k E. discriminate. }
  2: { cbn [conns]. intros row s [<-|[]] Hs. apply A, spins_in in Hs. apply Hs. }
  assert (U : forall b s, nth_error samples b = Some s -> nth b (map (fun _ : list Z => true) samples) false = true /\
    nth b (map (fun _ : list Z => RtoC (INR (sites_of shape))) samples) C0 = RtoC (INR (sites_of shape)) /\ nth b samples [] = s).
  { intros b s Hb. assert (L : b < length samples) by (apply nth_error_Some; congruence).
    split; [|split].
    - rewrite (nth_indep _ false true) by now rewrite map_length. apply (map_nth (fun _ : list Z => true) samples [] b).
    - rewrite (nth_indep _ C0 (RtoC (INR (sites_of shape)))) by now rewrite map_length. apply (map_nth (fun _ : list Z => RtoC (INR (sites_of shape))) samples [] b).
    - now apply nth_error_nth. }
  split; [|split; [|split]]; cbn [conns mels uses].
  - split; [|split]; (split; [reflexivity|]); (constructor; [|constructor]); rewrite ?map_length; reflexivity.
  - intros b s Hb. destruct (U b s Hb) as (U1 & _ & U3). unfold entry. cbn [nth]. now split.
  - intros k b Hk Hb. assert (k = 0) by lia. subst. unfold entry. cbn [nth]. intros X. cbn [uses] in X. destruct (nth_error samples b) as [s|] eqn:Es; [|apply nth_error_None in Es; lia].
    destruct (U b s Es) as (U1 & _). exfalso. cbn [nth] in X. congruence.
  - intros b s Hb. destruct (U b s Hb) as (U1 & U2 & U3). split.
    + intros k Hk _. assert (k = 0) by lia. subst. unfold entry. cbn [nth]. apply A. eapply nth_error_In. exact Hb.
    + intros t Ht. cbn [seq]. rewrite Csum_cons. unfold entry. cbn [nth]. rewrite U1, U2, U3. unfold scalar_matrix. rewrite J1J2OperatorProofs.Csum_nil.
      destruct (list_eq_dec Z.eq_dec s t); csolve.
Qed.

Lemma scalar_apply n r psi s : In s (spin_configs n) -> apply_matrix n (scalar_matrix r) psi s = (RtoC r * psi s)%C.
Proof.
  intros Hs. unfold apply_matrix, scalar_matrix.
  rewrite (Csum_ext _ (fun t => if list_eq_dec Z.eq_dec s t then (RtoC r * psi t)%C else C0)); [|intros t _; destruct (list_eq_dec Z.eq_dec s t); [reflexivity|csolve]].
  apply (ObservableProofs.Csum_single (list_eq_dec Z.eq_dec) (fun t => (RtoC r * psi t)%C)); [|exact Hs]. apply (Permutation_NoDup (basis_perm n)), basis_NoDup.
Qed.
Lemma eigen_expectation n H r lp : (forall s, In s (spin_configs n) -> apply_matrix n H (fun t => Cexp (lp t)) s = (RtoC r * Cexp (lp s))%C) ->
  expectation n H lp = RtoC r.
Proof.
  intros E. unfold expectation, braket. rewrite (Csum_ext _ (fun s => RtoC (r * born (lp s)))).
  - rewrite Csum_RtoC, Rsum_scal. fold (norm2 n lp). pose proof (norm2_pos n lp). unfold Cscale, RtoC. cbn [fst snd]. f_equal; [field; lra|ring].
  - intros s Hs. rewrite E by exact Hs. rewrite RtoC_mult. unfold born. rewrite <- Cmult_conj. ring.
Qed.

(** * Sums of exchanges *)
Section Exchange.
  Context (n : nat).
  Implicit Types (psi : list Z -> C) (s : list Z).

  Lemma configs_NoDup : NoDup (spin_configs n).
  Proof. apply (Permutation_NoDup (basis_perm n)), basis_NoDup. Qed.

  (** A bond acts as two exchanges minus the identity. *)
  Lemma bond_apply i j psi s : i < n -> j < n -> i <> j -> In s (spin_configs n) ->
    Csum (fun t => (RtoC (IZR (heisenberg_element 2 [(i, j)] s t)) * psi t)%C) (spin_configs n) = (RtoC 2 * psi (swapped s i j) - psi s)%C.
  Proof.
    intros Hi Hj N Hs. pose proof Hs as Sp. apply spins_in in Sp. pose proof (swapped_spins n s i j Sp Hi Hj) as Sw. apply spins_in in Sw.
    destruct Sp as [L F]. assert (Sp : spins n s) by now split.
    rewrite (Csum_ext _ (fun t => ((if list_eq_dec Z.eq_dec s t then (RtoC (IZR (spin s i * spin s j)) * psi t)%C else C0) +
      (if list_eq_dec Z.eq_dec (swapped s i j) t then (RtoC (if (spin s i =? spin s j)%Z then 0 else 2) * psi t)%C else C0))%C)).
    - rewrite Csum_plus, (ObservableProofs.Csum_single (list_eq_dec Z.eq_dec) (fun t => (RtoC (IZR (spin s i * spin s j)) * psi t)%C) s) by (auto using configs_NoDup).
      rewrite (ObservableProofs.Csum_single (list_eq_dec Z.eq_dec) (fun t => (RtoC (if (spin s i =? spin s j)%Z then 0 else 2) * psi t)%C) (swapped s i j)) by (auto using configs_NoDup).
      destruct (Z.eqb_spec (spin s i) (spin s j)) as [E|Ne].
      + assert (W : swapped s i j = s).
        { apply (nth_ext _ _ 0%Z 0%Z); [unfold swapped; now rewrite !upd_length|]. intros k _. unfold swapped, spin in *.
          destruct (Nat.eq_dec k j) as [->|Nj]; [rewrite nth_upd_same by (rewrite upd_length; lia); exact E|]. rewrite nth_upd_other by auto.
          destruct (Nat.eq_dec k i) as [->|Ni]; [rewrite nth_upd_same by lia; now symmetry|]. now rewrite nth_upd_other by auto. }
        rewrite W, E, (spin_square n s j Sp Hj). change (RtoC 1) with C1. change (RtoC 0) with C0. destruct (psi s). unfold RtoC, C1, C0, Cmult, Cminus, Cplus. cbn [fst snd]. f_equal; ring.
      + rewrite (opposite_product n s i j Sp Hi Hj Ne). destruct (psi s), (psi (swapped s i j)). unfold RtoC, Cmult, Cminus, Cplus. cbn [fst snd]. f_equal; ring.
    - intros t _. unfold heisenberg_element. rewrite Zsum_cons, Zsum_nil, Zsum_cons, Zsum_nil. cbn [fst snd]. rewrite <- (swapped_exchanged n s t i j L Hi Hj).
      destruct (list_eq_dec Z.eq_dec s t), (list_eq_dec Z.eq_dec (swapped s i j) t), (spin s i =? spin s j)%Z; cbn [negb andb]; rewrite ?Z.add_0_r, ?Z.add_0_l;
        try (change (IZR 0) with 0%R); rewrite ?plus_IZR; destruct (psi t); unfold RtoC, C0, Cmult, Cplus; cbn [fst snd]; f_equal; ring.
  Qed.

  (** A weighted sum of bonds. *)
  Definition bond_sum {A} (w : A -> R) (ends : A -> nat * nat) (l : list A) psi s : C :=
    Csum (fun e => (RtoC (w e) * (RtoC 2 * psi (swapped s (fst (ends e)) (snd (ends e))) - psi s))%C) l.
  Definition ends_ok {A} (ends : A -> nat * nat) (l : list A) : Prop := forall e, In e l -> fst (ends e) < n /\ snd (ends e) < n /\ fst (ends e) <> snd (ends e).

  Lemma weighted_apply {A} (w : A -> R) ends l (M : list Z -> list Z -> C) psi s : ends_ok ends l -> In s (spin_configs n) ->
    (forall t, M s t = RtoC (Rsum (fun e => (w e * IZR (heisenberg_element 2 [ends e] s t))%R) l)) ->
    apply_matrix n M psi s = bond_sum w ends l psi s.
  Proof.
    intros K Hs E. unfold apply_matrix, bond_sum.
    rewrite (Csum_ext _ (fun t => Csum (fun e => (RtoC (w e) * (RtoC (IZR (heisenberg_element 2 [ends e] s t)) * psi t))%C) l)).
    - rewrite Csum_exchange. apply Csum_ext. intros e He. rewrite Csum_scal. f_equal. destruct (K e He) as (K1 & K2 & K3). destruct (ends e) as [i j]. now apply bond_apply.
    - intros t _. rewrite E, <- Csum_RtoC, <- Csum_scal_r. apply Csum_ext. intros e _. rewrite RtoC_mult. ring.
  Qed.

  (** The total spin. *)
  Lemma total_apply psi s : In s (spin_configs n) -> apply_matrix n (total_spin_matrix n) psi s =
    (Csum (fun i => Csum (fun j => (RtoC 2 * psi (swapped s i j) - psi s)%C) (seq 0 n)) (seq 0 n) + RtoC (2 * INR n) * psi s)%C.
  Proof.
    intros Hs. unfold apply_matrix, total_spin_matrix. pose proof Hs as Sp. apply spins_in in Sp. destruct Sp as [L _].
    rewrite (Csum_ext _ (fun t => Csum (fun i => Csum (fun j => (RtoC (if i =? j then if list_eq_dec Z.eq_dec s t then 3 else 0
      else IZR (heisenberg_element 2 [(i, j)] s t)) * psi t)%C) (seq 0 n)) (seq 0 n))).
    2: { intros t _. rewrite <- Csum_RtoC, <- Csum_scal_r. apply Csum_ext. intros i _. now rewrite <- Csum_RtoC, <- Csum_scal_r. }
    rewrite Csum_exchange.
    rewrite (Csum_ext _ (fun i => (Csum (fun j => (RtoC 2 * psi (swapped s i j) - psi s)%C) (seq 0 n) + RtoC 2 * psi s)%C)).
    - rewrite Csum_plus. f_equal. rewrite Csum_scal_r, Csum_RtoC. f_equal. f_equal. clear. generalize 0. induction n as [|k IH]; intros a; [cbn; ring|].
      cbn [seq]. rewrite Rsum_cons, IH, S_INR. ring.
    - intros i Hi. apply in_seq in Hi. rewrite Csum_exchange.
      rewrite (Csum_ext _ (fun j => ((RtoC 2 * psi (swapped s i j) - psi s) + (if Nat.eq_dec i j then RtoC 2 * psi s else C0))%C)).
      + rewrite Csum_plus. f_equal. apply (ObservableProofs.Csum_single Nat.eq_dec (fun _ => (RtoC 2 * psi s)%C)); [apply seq_NoDup|]. apply in_seq. lia.
      + intros j Hj. apply in_seq in Hj. destruct (Nat.eq_dec i j) as [<-|N].
        * rewrite Nat.eqb_refl. assert (W : swapped s i i = s).
          { apply (nth_ext _ _ 0%Z 0%Z); [unfold swapped; now rewrite !upd_length|]. intros k _. unfold swapped, spin.
            destruct (Nat.eq_dec k i) as [->|Nj]; [now rewrite nth_upd_same by (rewrite upd_length; lia)|]. now rewrite !nth_upd_other by auto. }
          rewrite W. rewrite (Csum_ext _ (fun t => if list_eq_dec Z.eq_dec s t then (RtoC 3 * psi t)%C else C0)).
          -- rewrite (ObservableProofs.Csum_single (list_eq_dec Z.eq_dec) (fun t => (RtoC 3 * psi t)%C)) by (auto using configs_NoDup).
             destruct (psi s). unfold RtoC, Cmult, Cminus, Cplus. cbn [fst snd]. f_equal; ring.
          -- intros t _. destruct (list_eq_dec Z.eq_dec s t); [reflexivity|]. destruct (psi t). unfold RtoC, C0, Cmult. cbn [fst snd]. f_equal; ring.
        * destruct (Nat.eqb_spec i j); [contradiction|]. rewrite bond_apply by (auto; lia). ring.
  Qed.

  (** Exchanging two sites permutes the pairs of sites. *)
  Definition transpose (a b k : nat) : nat := if k =? a then b else if k =? b then a else k.
  Lemma swapped_nth s i j k : i < length s -> j < length s -> nth k (swapped s i j) 0%Z = nth (transpose i j k) s 0%Z.
  Proof.
    intros Hi Hj. unfold swapped, spin, transpose. destruct (Nat.eq_dec k j) as [Ej|Nj].
    - subst k. rewrite nth_upd_same by (rewrite upd_length; lia). rewrite Nat.eqb_refl. destruct (Nat.eqb_spec j i); [now subst|reflexivity].
    - rewrite nth_upd_other by auto. destruct (Nat.eqb_spec k j); [contradiction|]. destruct (Nat.eqb_spec k i) as [Ei|Ni]; [subst k; now rewrite nth_upd_same|now rewrite nth_upd_other by auto].
  Qed.
  Lemma swapped_length s i j : length (swapped s i j) = length s.
  Proof. unfold swapped. now rewrite !upd_length. Qed.
  Lemma transpose_lt a b k : a < n -> b < n -> k < n -> transpose a b k < n.
  Proof. unfold transpose. destruct (k =? a), (k =? b); auto. Qed.
  Lemma transpose_twice a b k : transpose a b (transpose a b k) = k.
  Proof.
    unfold transpose. destruct (Nat.eqb_spec k a) as [->|Na].
    - destruct (Nat.eqb_spec b a) as [->|]; [reflexivity|]. now rewrite Nat.eqb_refl.
    - destruct (Nat.eqb_spec k b) as [->|Nb]; [now rewrite Nat.eqb_refl|]. destruct (Nat.eqb_spec k a), (Nat.eqb_spec k b); congruence.
  Qed.
  Lemma transpose_conj a b i j k : transpose i j (transpose a b k) = transpose a b (transpose (transpose a b i) (transpose a b j) k).
  Proof.
    assert (E : forall x y, (transpose a b x =? y) = (x =? transpose a b y)).
    { intros x y. destruct (Nat.eqb_spec (transpose a b x) y) as [<-|N]; [rewrite transpose_twice; symmetry; apply Nat.eqb_refl|].
      destruct (Nat.eqb_spec x (transpose a b y)) as [->|]; [rewrite transpose_twice in N; congruence|reflexivity]. }
    unfold transpose at 1. rewrite !E.
    assert (Q : forall x y, transpose x y k = if k =? x then y else if k =? y then x else k) by reflexivity. rewrite (Q (transpose a b i)). clear Q. destruct (k =? transpose a b i); [now rewrite transpose_twice|].
    destruct (k =? transpose a b j); [now rewrite transpose_twice|reflexivity].
  Qed.
  Lemma swapped_conj s a b i j : length s = n -> a < n -> b < n -> i < n -> j < n ->
    swapped (swapped s i j) a b = swapped (swapped s a b) (transpose a b i) (transpose a b j).
  Proof.
    intros L Ha Hb Hi Hj. apply (nth_ext _ _ 0%Z 0%Z); [now rewrite !swapped_length|]. intros k _.
    pose proof (transpose_lt a b i Ha Hb Hi). pose proof (transpose_lt a b j Ha Hb Hj).
    rewrite !swapped_nth by (rewrite ?swapped_length; lia). f_equal. apply transpose_conj.
  Qed.
  Lemma transpose_perm a b : a < n -> b < n -> Permutation (map (transpose a b) (seq 0 n)) (seq 0 n).
  Proof.
    intros Ha Hb. pose proof (transpose_twice a b) as Inv.
    apply NoDup_Permutation_bis; [| |].
    - apply NoDup_map_on; [|apply seq_NoDup]. intros x y _ _ E. rewrite <- (Inv x), E. apply Inv.
    - rewrite map_length. lia.
    - intros k Hk. apply in_map_iff in Hk. destruct Hk as (i & <- & Hi). apply in_seq in Hi. apply in_seq. pose proof (transpose_lt a b i Ha Hb ltac:(lia)). lia.
  Qed.

  Lemma total_exchange psi s a b : a < n -> b < n -> In s (spin_configs n) ->
    Csum (fun i => Csum (fun j => (RtoC 2 * psi (swapped (swapped s i j) a b) - psi (swapped s a b))%C) (seq 0 n)) (seq 0 n) =
    Csum (fun i => Csum (fun j => (RtoC 2 * psi (swapped (swapped s a b) i j) - psi (swapped s a b))%C) (seq 0 n)) (seq 0 n).
  Proof.
    intros Ha Hb Hs. apply spins_in in Hs. destruct Hs as [L _].
    rewrite <- (Csum_perm (fun i => Csum (fun j => (RtoC 2 * psi (swapped (swapped s a b) i j) - psi (swapped s a b))%C) (seq 0 n)) _ _ (transpose_perm a b Ha Hb)).
    rewrite Csum_map. apply Csum_ext. intros i Hi. apply in_seq in Hi.
    rewrite <- (Csum_perm (fun j => (RtoC 2 * psi (swapped (swapped s a b) (transpose a b i) j) - psi (swapped s a b))%C) _ _ (transpose_perm a b Ha Hb)).
    rewrite Csum_map. apply Csum_ext. intros j Hj. apply in_seq in Hj. now rewrite swapped_conj by lia.
  Qed.

  Lemma total_commutes {A} (w : A -> R) ends l (M : list Z -> list Z -> C) psi s : ends_ok ends l -> In s (spin_configs n) ->
    (forall s t, M s t = RtoC (Rsum (fun e => (w e * IZR (heisenberg_element 2 [ends e] s t))%R) l)) ->
    apply_matrix n (total_spin_matrix n) (apply_matrix n M psi) s = apply_matrix n M (apply_matrix n (total_spin_matrix n) psi) s.
  Proof.
    intros K Hs E. set (T := total_spin_matrix n).
    assert (ME : forall phi r, In r (spin_configs n) -> apply_matrix n M phi r = bond_sum w ends l phi r) by (intros; now apply weighted_apply).
    assert (SW : forall r i j, In r (spin_configs n) -> i < n -> j < n -> In (swapped r i j) (spin_configs n)).
    { intros r i j Hr Hi Hj. apply spins_in. apply swapped_spins; auto. now apply spins_in. }
    transitivity (Csum (fun e => (RtoC (w e) * (RtoC 2 * apply_matrix n T (fun r => psi (swapped r (fst (ends e)) (snd (ends e)))) s - apply_matrix n T psi s))%C) l).
    - unfold T at 1. rewrite (total_apply _ s Hs). rewrite (Csum_ext _ (fun i => Csum (fun j => (RtoC 2 * bond_sum w ends l psi (swapped s i j) - bond_sum w ends l psi s)%C) (seq 0 n))).
      2: { intros i Hi. apply Csum_ext. intros j Hj. apply in_seq in Hi. apply in_seq in Hj. rewrite !ME by (auto; apply SW; auto; lia). reflexivity. }
      rewrite (ME psi s Hs).
      rewrite (Csum_ext _ (fun i => Csum (fun e => (RtoC (w e) * Csum (fun j => (RtoC 2 * (RtoC 2 * psi (swapped (swapped s i j) (fst (ends e)) (snd (ends e))) - psi (swapped s i j)) -
        (RtoC 2 * psi (swapped s (fst (ends e)) (snd (ends e))) - psi s))%C) (seq 0 n))%C) l)).
      2: { intros i _. rewrite (Csum_ext _ (fun j => Csum (fun e => (RtoC (w e) * (RtoC 2 * (RtoC 2 * psi (swapped (swapped s i j) (fst (ends e)) (snd (ends e))) - psi (swapped s i j)) -
            (RtoC 2 * psi (swapped s (fst (ends e)) (snd (ends e))) - psi s)))%C) l)).
           - rewrite Csum_exchange. apply Csum_ext. intros e _. apply Csum_scal.
           - intros j _. unfold bond_sum. rewrite <- Csum_scal, <- Csum_minus. apply Csum_ext. intros e _. ring. }
      rewrite Csum_exchange. unfold bond_sum. rewrite <- Csum_scal, <- Csum_plus. apply Csum_ext. intros e _. rewrite Csum_scal. unfold T. rewrite !total_apply by exact Hs.
      set (q := psi (swapped s (fst (ends e)) (snd (ends e)))).
      transitivity (RtoC (w e) * (RtoC 2 * Csum (fun i => Csum (fun j => (RtoC 2 * psi (swapped (swapped s i j) (fst (ends e)) (snd (ends e))) - q)%C) (seq 0 n)) (seq 0 n) -
        Csum (fun i => Csum (fun j => (RtoC 2 * psi (swapped s i j) - psi s)%C) (seq 0 n)) (seq 0 n) + RtoC (2 * INR n) * (RtoC 2 * q - psi s)))%C; [|ring].
      match goal with |- (_ * Csum ?f _ + _)%C = (_ * (RtoC 2 * Csum ?g _ - Csum ?h _ + _))%C =>
        assert (X : Csum f (seq 0 n) = (RtoC 2 * Csum g (seq 0 n) - Csum h (seq 0 n))%C); [|rewrite X; ring] end.
      rewrite <- (Csum_scal (RtoC 2)), <- Csum_minus. apply Csum_ext. intros i _. rewrite <- (Csum_scal (RtoC 2)), <- Csum_minus. apply Csum_ext. intros j _. ring.
    - rewrite (ME _ s Hs). unfold bond_sum. apply Csum_ext. intros e He. destruct (K e He) as (K1 & K2 & _). do 3 f_equal.
      unfold T. rewrite (total_apply psi (swapped s _ _)) by now apply SW. rewrite total_apply by exact Hs. f_equal. now apply total_exchange.
  Qed.
End Exchange.

Lemma element_bonds off bonds s t : heisenberg_element off bonds s t = Zsum (fun b => heisenberg_element off [b] s t) bonds.
Proof.
  unfold heisenberg_element. induction bonds as [|b l IH]; [rewrite !Zsum_nil; destruct (list_eq_dec Z.eq_dec s t); reflexivity|].
  rewrite !Zsum_cons, !Zsum_nil in *. rewrite <- IH. destruct (list_eq_dec Z.eq_dec s t); lia.
Qed.
Lemma IZR_Zsum {A} (f : A -> Z) l : IZR (Zsum f l) = Rsum (fun a => IZR (f a)) l.
Proof. induction l as [|a l IH]; [reflexivity|]. now rewrite Zsum_cons, Rsum_cons, plus_IZR, IH. Qed.

Lemma heisenberg_conserves shape pbc psi s : chain_or_grid shape -> In s (spin_configs (sites_of shape)) ->
  let n := sites_of shape in let H := heisenberg_matrix false pbc shape in
  apply_matrix n (total_spin_matrix n) (apply_matrix n H psi) s = apply_matrix n H (apply_matrix n (total_spin_matrix n) psi) s.
Proof.
  intros G Hs n H. apply (total_commutes n (fun _ => 1%R) (fun b : nat * nat => b) (shape_bonds shape pbc)); [|exact Hs|].
  - intros b Hb. pose proof (shape_bonds_ok shape pbc G) as K. unfold bonds_ok in K. rewrite Forall_forall in K. exact (K b Hb).
  - intros r t. unfold H, heisenberg_matrix. rewrite element_bonds, IZR_Zsum. f_equal. apply Rsum_ext. intros b _. ring.
Qed.
Lemma j1j2_conserves_spin L1 L2 j2 pbc psi s : j1j2_grid L1 L2 pbc -> In s (spin_configs (L1 * L2)) ->
  let n := L1 * L2 in let H := j1j2_matrix L1 L2 j2 pbc in
  apply_matrix n (total_spin_matrix n) (apply_matrix n H psi) s = apply_matrix n H (apply_matrix n (total_spin_matrix n) psi) s.
Proof.
  intros G Hs n H. apply (total_commutes n (fun e : nat * nat * nat => coupling j2 (snd e)) (fun e => fst e) (lattice_edges L1 L2 pbc)); [|exact Hs|].
  - intros [[i j] c] He. pose proof (grid_edges_ok L1 L2 pbc G) as K. unfold edges_ok in K. rewrite Forall_forall in K. destruct (K _ He) as (K1 & K2 & K3 & _). now split.
  - intros r t. unfold H, j1j2_matrix. f_equal. apply Rsum_ext. intros [[i j] c] _. reflexivity.
Qed.

Lemma Rsum_const_seq (c : R) n : forall a, Rsum (fun _ => c) (seq a n) = (INR n * c)%R.
Proof. induction n as [|n IH]; intros a; [cbn; ring|]. cbn [seq]. rewrite Rsum_cons, IH, S_INR. ring. Qed.
Lemma uniform_total n psi c s : (forall r, In r (spin_configs n) -> psi r = c) -> In s (spin_configs n) ->
  apply_matrix n (total_spin_matrix n) psi s = (RtoC (INR (n * (n + 2))) * c)%C.
Proof.
  intros E Hs. rewrite total_apply by exact Hs. rewrite (Csum_ext _ (fun _ => (RtoC (INR n) * c)%C)).
  - rewrite Csum_scal_r, Csum_RtoC, Rsum_const_seq, (E s Hs), mult_INR, plus_INR. change (INR 2) with 2%R. destruct c. unfold RtoC, Cmult, Cplus. cbn [fst snd]. f_equal; ring.
  - intros i Hi. apply in_seq in Hi. rewrite (Csum_ext _ (fun _ => (RtoC 1 * c)%C)).
    + rewrite Csum_scal_r, Csum_RtoC, Rsum_const_seq. do 2 f_equal. ring.
    + intros j Hj. apply in_seq in Hj. rewrite !E; [destruct c; unfold RtoC, Cmult, Cminus; cbn [fst snd]; f_equal; ring|exact Hs|].
      apply spins_in. apply swapped_spins; [now apply spins_in|lia|lia].
Qed.

Lemma singlet_total s : In s (spin_configs 2) -> apply_matrix 2 (total_spin_matrix 2) singlet s = C0.
Proof.
  intros Hs. rewrite total_apply by exact Hs. change (spin_configs 2) with [[1; 1]; [1; -1]; [-1; 1]; [-1; -1]]%Z in Hs.
  change (seq 0 2) with [0; 1]. rewrite !Csum_cons, !J1J2OperatorProofs.Csum_nil. 
  destruct Hs as [<-|[<-|[<-|[<-|[]]]]]; unfold swapped, spin; cbn [upd nth]; unfold singlet;
    repeat match goal with |- context [list_eq_dec Z.eq_dec ?a ?b] => destruct (list_eq_dec Z.eq_dec a b); [try discriminate|try congruence] end;
    unfold RtoC, C0, C1, Copp, Cmult, Cminus, Cplus; cbn [fst snd INR]; f_equal; ring.
Qed.

Lemma ones_apply n (E : list Z -> list Z -> Z) s : apply_matrix n (fun s t => RtoC (IZR (E s t))) (fun _ => C1) s = RtoC (IZR (Zsum (E s) (spin_configs n))).
Proof. unfold apply_matrix. rewrite IZR_Zsum, <- Csum_RtoC. apply Csum_ext. intros t _. ring. Qed.
Lemma rotated_not_conserved : let n := 3 in let H := heisenberg_matrix true false [3] in let psi := fun _ => C1 in let s := [-1; 1; 1]%Z in
  apply_matrix n (total_spin_matrix n) (apply_matrix n H psi) s <> apply_matrix n H (apply_matrix n (total_spin_matrix n) psi) s.
Proof.
  intros n H psi s. assert (Hs : In s (spin_configs 3)) by (vm_compute; tauto).
  assert (EH : forall r, apply_matrix n H psi r = RtoC (IZR (Zsum (heisenberg_element (-2) (shape_bonds [3] false) r) (spin_configs 3)))) by (intros r; apply ones_apply).
  assert (R : apply_matrix n H (apply_matrix n (total_spin_matrix n) psi) s = RtoC (-30)).
  { transitivity (RtoC (INR 15) * apply_matrix n H psi s)%C.
    - unfold apply_matrix at 1 3. rewrite <- Csum_scal. apply Csum_ext. intros t Ht. rewrite (uniform_total n psi C1 t) by auto. change (n * (n + 2)) with 15. unfold psi. ring.
    - rewrite EH. let z := eval vm_compute in (Zsum (heisenberg_element (-2) (shape_bonds [3] false) s) (spin_configs 3)) in
        change (Zsum (heisenberg_element (-2) (shape_bonds [3] false) s) (spin_configs 3)) with z.
      unfold RtoC, Cmult. cbn [fst snd]. rewrite INR_IZR_INZ. cbn [Z.of_nat Pos.of_succ_nat Pos.succ]. f_equal; ring. }
  rewrite R. rewrite (total_apply n _ s Hs). change (seq 0 n) with [0; 1; 2]. rewrite !Csum_cons, !J1J2OperatorProofs.Csum_nil, !EH. unfold swapped, spin, s. cbn [upd nth].
  repeat match goal with |- context [Zsum ?f ?l] => let z := eval vm_compute in (Zsum f l) in change (Zsum f l) with z end.
  unfold RtoC, C0, Cmult, Cminus, Cplus. cbn [fst snd]. intros X. apply (f_equal fst) in X. cbn [fst] in X. unfold n in X. cbn [INR] in X. lra.
Qed.
