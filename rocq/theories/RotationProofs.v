(** Lemmas on the unitary rotation of the Heisenberg operator. *)
From Coq Require Import List ZArith Lia Bool Arith Reals Lra.
From Verif Require Import Base Cplx LatticeSpec HeisenbergModel HeisenbergProofs AutoregressiveSpec ObservableModel ObservableSpec ObservableProofs ExactModel ExactSpec ExactProofs
  ExactOperatorProofs RotationSpec.
Import ListNotations.
Local Open Scope Z_scope.

(** * The sign of the sublattice *)
Lemma fold_mult {A} (f g : A -> Z) l :
  fold_right Z.mul 1 (map f l) * fold_right Z.mul 1 (map g l) = fold_right Z.mul 1 (map (fun i => f i * g i) l).
Proof. induction l as [|a l IH]; cbn [map fold_right]; [reflexivity|]. rewrite <- IH. ring. Qed.
Lemma fold_ones {A} (f : A -> Z) l : (forall a, In a l -> f a = 1) -> fold_right Z.mul 1 (map f l) = 1.
Proof. induction l as [|a l IH]; intros H; cbn [map fold_right]; [reflexivity|]. rewrite (H a), IH; [reflexivity| |now left]. intros x Hx. apply H. now right. Qed.
Lemma fold_one (f : nat -> Z) k l : NoDup l -> In k l -> (forall i, In i l -> i <> k -> f i = 1) -> fold_right Z.mul 1 (map f l) = f k.
Proof.
  induction l as [|a l IH]; intros N I H; [destruct I|]. inversion N as [|? ? Ha N']; subst. cbn [map fold_right]. destruct I as [->|I].
  - rewrite fold_ones; [ring|]. intros i Hi. apply H; [now right|]. intros ->. contradiction.
  - rewrite IH; auto.
    + rewrite (H a); [ring|now left|]. intros ->. contradiction.
    + intros i Hi. apply H. now right.
Qed.

Lemma spin_square n s i : spins n s -> (i < n)%nat -> spin s i * spin s i = 1.
Proof.
  intros [L F] Hi. rewrite Forall_forall in F. unfold spin. destruct (F (nth i s 0)) as [->| ->]; [|reflexivity|reflexivity]. apply nth_In. lia.
Qed.
Lemma sign_self shape s : spins (sites_of shape) s -> sublattice_sign shape s * sublattice_sign shape s = 1.
Proof.
  intros Hs. unfold sublattice_sign. rewrite fold_mult. apply fold_ones. intros i Hi. apply in_seq in Hi.
  destruct (odd_site shape i); [|reflexivity]. apply (spin_square (sites_of shape)); auto; lia.
Qed.
Lemma sign_values shape s : spins (sites_of shape) s -> sublattice_sign shape s = 1 \/ sublattice_sign shape s = -1.
Proof. intros Hs. pose proof (sign_self shape s Hs). nia. Qed.

Lemma exchanged_spin a b s t i : exchanged a b s t = true -> (i < length s)%nat ->
  spin t i = if (i =? a)%nat then spin s b else if (i =? b)%nat then spin s a else spin s i.
Proof.
  unfold exchanged. rewrite andb_true_iff, forallb_forall. intros [_ H] Hi. apply Z.eqb_eq, H. apply in_seq. lia.
Qed.
Lemma opposite_product n s a b : spins n s -> (a < n)%nat -> (b < n)%nat -> spin s a <> spin s b -> spin s a * spin s b = -1.
Proof. intros Hs Ha Hb N. destruct Hs as [L F]. rewrite Forall_forall in F. unfold spin in *.
  destruct (F (nth a s 0)) as [Ea|Ea]; [apply nth_In; lia| |]; (destruct (F (nth b s 0)) as [Eb|Eb]; [apply nth_In; lia| |]); rewrite Ea, Eb in *; lia. Qed.

Lemma sign_exchanged shape s t a b : spins (sites_of shape) s -> (a < sites_of shape)%nat -> (b < sites_of shape)%nat ->
  odd_site shape a <> odd_site shape b -> spin s a <> spin s b -> exchanged a b s t = true ->
  sublattice_sign shape s * sublattice_sign shape t = -1.
Proof.
  intros Hs Ha Hb Ho Hn He. pose proof Hs as [L _]. unfold sublattice_sign. rewrite fold_mult.
  pose proof (opposite_product _ _ _ _ Hs Ha Hb Hn) as P.
  rewrite (fold_one _ (if odd_site shape a then a else b)).
  - destruct (odd_site shape a) eqn:Oa.
    + rewrite Oa, (exchanged_spin a b s t a He) by lia. now rewrite Nat.eqb_refl.
    + assert (Ob : odd_site shape b = true) by (destruct (odd_site shape b); congruence). rewrite Ob, (exchanged_spin a b s t b He) by lia.
      rewrite Nat.eqb_refl. destruct (Nat.eqb_spec b a) as [->|_]; [congruence|]. lia.
  - apply seq_NoDup.
  - apply in_seq. destruct (odd_site shape a); lia.
  - intros i Hi N. apply in_seq in Hi. destruct (odd_site shape i) eqn:Oi; [|reflexivity]. rewrite (exchanged_spin a b s t i He) by lia.
    destruct (Nat.eqb_spec i a) as [->|Na].
    { rewrite Oi in N. congruence. }
    destruct (Nat.eqb_spec i b) as [->|Nb].
    { destruct (odd_site shape a); congruence. }
    apply (spin_square (sites_of shape)); auto; lia.
Qed.

(** * Bonds join the two sublattices *)
Lemma chain_parity n pbc a b : (pbc = false \/ n = 1%nat \/ Nat.Even n) -> In (a, b) (chain_bonds n pbc) -> Nat.odd a <> Nat.odd b.
Proof.
  intros H I. unfold chain_bonds in I. apply in_app_iff in I. destruct I as [I|I].
  - apply in_map_iff in I. destruct I as (i & E & _). injection E as <- <-. rewrite Nat.odd_succ, <- Nat.negb_odd. now destruct (Nat.odd i).
  - destruct pbc; cbn [andb] in I; [|destruct I]. destruct (Nat.ltb_spec 1 n) as [Ln|_]; [|destruct I]. destruct I as [E|[]]. injection E as <- <-.
    destruct H as [H|[H|H]]; [discriminate|lia|]. destruct H as [k ->]. replace (2 * k - 1)%nat with (S (2 * (k - 1))) by lia.
    rewrite Nat.odd_succ. change (Nat.odd 0) with false. rewrite <- Nat.negb_odd, Nat.odd_mul. discriminate.
Qed.
Lemma divide_site a j m : (j < m)%nat -> ((a * m + j) / m = a)%nat /\ ((a * m + j) mod m = j)%nat.
Proof.
  intros H. split.
  - rewrite Nat.div_add_l by lia. rewrite Nat.div_small by lia. lia.
  - rewrite Nat.add_comm, Nat.mod_add by lia. now apply Nat.mod_small.
Qed.
Lemma bond_parity shape pbc a b : chain_or_grid shape -> bipartite shape pbc -> In (a, b) (shape_bonds shape pbc) -> odd_site shape a <> odd_site shape b.
Proof.
  intros [(n & -> & Hn)|(n & m & -> & Hn & Hm)] B I; cbn [shape_bonds odd_site] in *.
  - apply (chain_parity n pbc); auto. destruct B as [B|B]; [now left|]. inversion B; subst. tauto.
  - assert (Bn : pbc = false \/ n = 1%nat \/ Nat.Even n) by (destruct B as [B|B]; [now left|]; inversion B; subst; tauto).
    assert (Bm : pbc = false \/ m = 1%nat \/ Nat.Even m).
    { destruct B as [B|B]; [now left|]. inversion B as [|? ? ? B']; subst. inversion B'; subst; tauto. }
    unfold grid_bonds in I. apply in_app_iff in I. destruct I as [I|I]; apply in_flat_map in I; destruct I as (j & Hj & I); apply in_seq in Hj;
      apply in_map_iff in I; destruct I as ([c d] & E & I); cbn [fst snd] in E; injection E as <- <-.
    + destruct (divide_site c j m) as [-> ->]; [lia|]. destruct (divide_site d j m) as [-> ->]; [lia|]. pose proof (chain_parity n pbc c d Bn I).
      rewrite !Nat.odd_add. destruct (Nat.odd c), (Nat.odd d), (Nat.odd j); cbn [xorb]; congruence.
    + pose proof (chain_bonds_ok m pbc) as K. unfold bonds_ok in K. rewrite Forall_forall in K. destruct (K _ I) as (K1 & K2 & _). cbn [fst snd] in K1, K2.
      destruct (divide_site j c m K1) as [-> ->]. destruct (divide_site j d m K2) as [-> ->]. pose proof (chain_parity m pbc c d Bm I).
      rewrite !Nat.odd_add. destruct (Nat.odd c), (Nat.odd d), (Nat.odd j); cbn [xorb]; congruence.
Qed.

Lemma Zsum_scale {A} c (f : A -> Z) l : Zsum (fun a => c * f a) l = c * Zsum f l.
Proof. induction l as [|a l IH]; [rewrite !Zsum_nil; ring|]. rewrite !Zsum_cons, IH. ring. Qed.

Lemma element_rotation shape pbc s t : chain_or_grid shape -> bipartite shape pbc -> spins (sites_of shape) s ->
  heisenberg_element (-2) (shape_bonds shape pbc) s t =
  sublattice_sign shape s * sublattice_sign shape t * heisenberg_element 2 (shape_bonds shape pbc) s t.
Proof.
  intros G B Hs. unfold heisenberg_element. rewrite Z.mul_add_distr_l. apply f_equal2.
  - destruct (list_eq_dec Z.eq_dec s t) as [<-|_]; [|ring]. rewrite sign_self by assumption. ring.
  - rewrite <- Zsum_scale. apply Zsum_ext. intros [a b] Hb. cbn [fst snd].
    pose proof (shape_bonds_ok shape pbc G) as K. unfold bonds_ok in K. rewrite Forall_forall in K. destruct (K _ Hb) as (K1 & K2 & _). cbn [fst snd] in K1, K2.
    destruct (Z.eqb_spec (spin s a) (spin s b)) as [E|N]; cbn [negb andb]; [ring|]. destruct (exchanged a b s t) eqn:Ex; [|ring].
    rewrite (sign_exchanged shape s t a b) by (auto; now apply (bond_parity shape pbc)). ring.
Qed.

Lemma matrix_rotation shape pbc s t : chain_or_grid shape -> bipartite shape pbc -> spins (sites_of shape) s ->
  heisenberg_matrix true pbc shape s t =
  (RtoC (IZR (sublattice_sign shape s)) * heisenberg_matrix false pbc shape s t * RtoC (IZR (sublattice_sign shape t)))%C.
Proof.
  intros G B Hs. unfold heisenberg_matrix. rewrite element_rotation by assumption. rewrite !mult_IZR, !RtoC_mult. ring.
Qed.

(** * Energies *)
Lemma Cexp_pi z : Cexp (z + (0%R, PI))%C = (RtoC (-1) * Cexp z)%C.
Proof.
  rewrite Cexp_plus. replace (Cexp (0%R, PI)) with (RtoC (-1)); [ring|]. unfold Cexp, RtoC. cbn [fst snd]. rewrite exp_0, cos_PI, sin_PI. f_equal; ring.
Qed.
Lemma rotated_exp shape lp s : spins (sites_of shape) s -> Cexp (rotated shape lp s) = (RtoC (IZR (sublattice_sign shape s)) * Cexp (lp s))%C.
Proof.
  intros Hs. unfold rotated. destruct (sign_values shape s Hs) as [E|E]; rewrite E.
  - cbn. change (RtoC 1) with C1. ring.
  - apply Cexp_pi.
Qed.
Lemma rotated_born shape lp s : born (rotated shape lp s) = born (lp s).
Proof. unfold rotated. destruct (_ =? 1); [reflexivity|]. unfold born. rewrite !Cnorm2_exp. unfold Re, Cplus. cbn [fst]. do 2 f_equal. ring. Qed.

Lemma signs_cancel shape s : spins (sites_of shape) s -> (RtoC (IZR (sublattice_sign shape s)) * RtoC (IZR (sublattice_sign shape s)) = C1)%C.
Proof. intros Hs. rewrite <- RtoC_mult, <- mult_IZR, sign_self by assumption. reflexivity. Qed.

Lemma braket_rotated shape pbc lp : chain_or_grid shape -> bipartite shape pbc ->
  braket (sites_of shape) (heisenberg_matrix true pbc shape) (fun s => Cexp (lp s)) =
  braket (sites_of shape) (heisenberg_matrix false pbc shape) (fun s => Cexp (rotated shape lp s)).
Proof.
  intros G B. unfold braket. apply Csum_ext. intros s Hs. apply spins_in in Hs. rewrite rotated_exp by assumption. rewrite Cconj_mult, Cconj_RtoC.
  unfold apply_matrix. rewrite <- !Csum_scal. apply Csum_ext. intros t Ht. apply spins_in in Ht. rewrite rotated_exp by assumption.
  rewrite (matrix_rotation shape pbc s t) by assumption. ring.
Qed.
Lemma norm2_rotated shape lp : norm2 (sites_of shape) (rotated shape lp) = norm2 (sites_of shape) lp.
Proof. unfold norm2. apply Rsum_ext. intros s _. apply rotated_born. Qed.
Lemma expectation_rotated shape pbc lp : chain_or_grid shape -> bipartite shape pbc ->
  expectation (sites_of shape) (heisenberg_matrix true pbc shape) lp = expectation (sites_of shape) (heisenberg_matrix false pbc shape) (rotated shape lp).
Proof. intros G B. unfold expectation. now rewrite norm2_rotated, braket_rotated. Qed.

Lemma rotated_twice shape lp s : spins (sites_of shape) s -> Cexp (rotated shape (rotated shape lp) s) = Cexp (lp s).
Proof. intros Hs. rewrite !rotated_exp by assumption. pose proof (signs_cancel shape s Hs) as E. transitivity (C1 * Cexp (lp s))%C; [rewrite <- E; ring|ring]. Qed.

Lemma same_if_bipartite shape pbc : chain_or_grid shape -> bipartite shape pbc ->
  same_up_to_diagonal (sites_of shape) (heisenberg_matrix true pbc shape) (heisenberg_matrix false pbc shape).
Proof.
  intros G B. exists (fun s => RtoC (IZR (sublattice_sign shape s))). split.
  - intros s Hs E. apply spins_in in Hs. apply (f_equal Re) in E. unfold RtoC, C0, Re in E. cbn [fst] in E. apply eq_IZR in E.
    pose proof (sign_self shape s Hs). rewrite E in H. discriminate.
  - intros s t Hs Ht. apply spins_in in Hs. apply spins_in in Ht. rewrite (matrix_rotation shape pbc s t) by assumption.
    pose proof (signs_cancel shape t Ht) as E. transitivity (RtoC (IZR (sublattice_sign shape s)) * heisenberg_matrix false pbc shape s t * C1)%C; [rewrite <- E; ring|ring].
Qed.

(** * Rings of odd length *)
Definition single_up (n k : nat) : list Z := map (fun i => if (i =? k)%nat then 1 else -1) (seq 0 n).
Lemma single_spins n k : spins n (single_up n k).
Proof.
  unfold single_up. split; [now rewrite map_length, seq_length|]. apply Forall_forall. intros x H. apply in_map_iff in H. destruct H as (i & <- & _).
  destruct (i =? k)%nat; [now left|now right].
Qed.
Lemma single_spin n k i : (i < n)%nat -> spin (single_up n k) i = if (i =? k)%nat then 1 else -1.
Proof.
  intros H. unfold spin, single_up. rewrite (nth_indep _ 0 ((fun i => if (i =? k)%nat then 1 else -1) 0%nat)) by (rewrite map_length, seq_length; lia).
  rewrite (map_nth (fun i => if (i =? k)%nat then 1 else -1)), seq_nth by lia. reflexivity.
Qed.
Lemma single_exchanged n a b : (a < n)%nat -> (b < n)%nat -> a <> b -> exchanged a b (single_up n a) (single_up n b) = true.
Proof.
  intros Ha Hb N. unfold exchanged. apply andb_true_iff. pose proof (single_spins n a) as [La _]. pose proof (single_spins n b) as [Lb _]. split.
  - rewrite La, Lb. apply Nat.eqb_refl.
  - apply forallb_forall. intros i Hi. apply in_seq in Hi. rewrite La in Hi. rewrite !single_spin by lia. apply Z.eqb_eq.
    rewrite Nat.eqb_refl. destruct (Nat.eqb_spec i b), (Nat.eqb_spec i a), (Nat.eqb_spec b a); subst; congruence.
Qed.

Definition joins (s t : list Z) (b : nat * nat) : Z := if negb (spin s (fst b) =? spin s (snd b)) && exchanged (fst b) (snd b) s t then 1 else 0.
Lemma element_off off bonds s t : s <> t -> heisenberg_element off bonds s t = off * Zsum (joins s t) bonds.
Proof.
  intros N. unfold heisenberg_element. destruct (list_eq_dec Z.eq_dec s t) as [E|_]; [contradiction|]. rewrite <- Zsum_scale, Z.add_0_l.
  apply Zsum_ext. intros b _. unfold joins. destruct (_ && _); ring.
Qed.
Lemma joins_nonneg s t l : 0 <= Zsum (joins s t) l.
Proof. induction l as [|b l IH]; [rewrite Zsum_nil; lia|]. rewrite Zsum_cons. unfold joins at 1. destruct (_ && _); lia. Qed.
Lemma joins_pos s t b l : In b l -> joins s t b = 1 -> 0 < Zsum (joins s t) l.
Proof.
  induction l as [|c l IH]; intros I E; [destruct I|]. rewrite Zsum_cons. pose proof (joins_nonneg s t l). destruct I as [->|I]; [lia|].
  specialize (IH I E). unfold joins at 1. destruct (_ && _); lia.
Qed.

Lemma diagonal_step n bonds (D : list Z -> C) a b : In (a, b) bonds -> (a < n)%nat -> (b < n)%nat -> a <> b ->
  (RtoC (IZR (heisenberg_element (-2) bonds (single_up n a) (single_up n b))) * D (single_up n b) =
   D (single_up n a) * RtoC (IZR (heisenberg_element 2 bonds (single_up n a) (single_up n b))))%C ->
  D (single_up n b) = Copp (D (single_up n a)).
Proof.
  intros I Ha Hb N E.
  assert (Ne : single_up n a <> single_up n b).
  { intros X. apply (f_equal (fun s => spin s a)) in X. rewrite !single_spin in X by lia. rewrite Nat.eqb_refl in X. destruct (Nat.eqb_spec a b); congruence. }
  rewrite !element_off in E by assumption. assert (P : 0 < Zsum (joins (single_up n a) (single_up n b)) bonds).
  { apply (joins_pos _ _ (a, b)); auto. unfold joins. cbn [fst snd]. rewrite single_exchanged, !single_spin, Nat.eqb_refl by assumption.
    destruct (Nat.eqb_spec b a); [congruence|]. reflexivity. }
  apply IZR_lt in P. rewrite !mult_IZR in E. set (c := IZR (Zsum _ bonds)) in *. clearbody c.
  destruct (D (single_up n b)) as [x y], (D (single_up n a)) as [x' y']. unfold RtoC, Cmult, Copp in *. cbn [fst snd] in *. injection E as E1 E2.
  f_equal; nra.
Qed.

Lemma odd_ring n (E : nat -> C) : Nat.Odd n -> (1 < n)%nat -> (forall a b, In (a, b) (chain_bonds n true) -> E b = Copp (E a)) -> E 0%nat = C0.
Proof.
  intros O L H. unfold chain_bonds in H. replace (1 <? n)%nat with true in H by (symmetry; now apply Nat.ltb_lt). cbn [andb] in H.
  assert (S1 : forall k, (k < n)%nat -> E k = if Nat.odd k then Copp (E 0%nat) else E 0%nat).
  { induction k as [|k IH]; intros Hk; [reflexivity|]. rewrite (H k (S k)).
    - rewrite IH by lia. rewrite Nat.odd_succ, <- Nat.negb_odd. destruct (Nat.odd k); cbn [negb]; [|reflexivity]. destruct (E 0%nat). unfold Copp. cbn [fst snd]. f_equal; ring.
    - apply in_app_iff. left. apply in_map_iff. exists k. split; [reflexivity|]. apply in_seq. lia. }
  assert (X : E 0%nat = Copp (E (n - 1)%nat)). { apply H. apply in_app_iff. right. now left. }
  rewrite (S1 (n - 1)%nat) in X by lia. destruct O as [k ->]. replace (2 * k + 1 - 1)%nat with (2 * k)%nat in X by lia. rewrite Nat.odd_mul in X. cbn [Nat.odd Nat.even negb andb] in X.
  destruct (E 0%nat) as [x y]. unfold Copp, C0 in *. cbn [fst snd] in X. injection X as X1 X2. f_equal; lra.
Qed.

Lemma bipartite_if_same shape pbc : chain_or_grid shape ->
  same_up_to_diagonal (sites_of shape) (heisenberg_matrix true pbc shape) (heisenberg_matrix false pbc shape) -> bipartite shape pbc.
Proof.
  intros G (D & ND & HD). destruct pbc; [|now left]. right.
  assert (Step : forall a b, In (a, b) (shape_bonds shape true) -> D (single_up (sites_of shape) b) = Copp (D (single_up (sites_of shape) a))).
  { intros a b I. pose proof (shape_bonds_ok shape true G) as K. unfold bonds_ok in K. rewrite Forall_forall in K. destruct (K _ I) as (K1 & K2 & K3). cbn [fst snd] in *.
    apply (diagonal_step _ (shape_bonds shape true)); auto. apply HD; apply spins_in, single_spins. }
  assert (Ring : forall n (f : nat -> nat), (forall a b, In (a, b) (chain_bonds n true) -> In (f a, f b) (shape_bonds shape true)) -> (0 < n)%nat -> n = 1%nat \/ Nat.Even n).
  { intros n f Hf Hn. destruct (Nat.Even_or_Odd n) as [Ev|O]; [now right|]. destruct (Nat.eq_dec n 1) as [|N1]; [now left|]. exfalso.
    apply (ND (single_up (sites_of shape) (f 0%nat))); [apply spins_in, single_spins|].
    apply (odd_ring n (fun k => D (single_up (sites_of shape) (f k)))); auto. lia. }
  destruct G as [(n & -> & Hn)|(n & m & -> & Hn & Hm)]; cbn [shape_bonds] in *.
  - constructor; [|constructor]. apply (Ring n (fun k => k)); auto.
  - constructor; [|constructor; [|constructor]].
    + apply (Ring n (fun k => k * m + 0)%nat); auto. intros a b I. unfold grid_bonds. apply in_app_iff. left. apply in_flat_map. exists 0%nat. split; [apply in_seq; lia|].
      apply in_map_iff. exists (a, b). now split.
    + apply (Ring m (fun k => 0 * m + k)%nat); auto. intros a b I. unfold grid_bonds. apply in_app_iff. right. apply in_flat_map. exists 0%nat. split; [apply in_seq; lia|].
      apply in_map_iff. exists (a, b). now split.
Qed.

(** * Wave functions without phases *)
Lemma modulus_lowers n (H : list Z -> list Z -> R) lp : (forall s t, In s (spin_configs n) -> In t (spin_configs n) -> s <> t -> (H s t <= 0)%R) ->
  (Re (expectation n (fun s t => RtoC (H s t)) (modulus lp)) <= Re (expectation n (fun s t => RtoC (H s t)) lp))%R.
Proof.
  intros HN. unfold expectation. assert (EN : norm2 n (modulus lp) = norm2 n lp).
  { unfold norm2. apply Rsum_ext. intros s _. unfold born, modulus. rewrite !Cnorm2_exp. reflexivity. }
  rewrite EN. pose proof (norm2_pos n lp) as P. unfold Cscale, Re. cbn [fst]. apply Rmult_le_compat_l; [left; now apply Rinv_0_lt_compat|].
  unfold braket, apply_matrix. change (@fst R R) with Re. rewrite !Re_Csum. apply ExactProofs.Rsum_le. intros s Hs.
  rewrite <- !Csum_scal, !Re_Csum. apply ExactProofs.Rsum_le. intros t Ht. unfold modulus. rewrite !Cexp_RtoC, Cconj_RtoC.
  destruct (lp s) as [a b] eqn:Es, (lp t) as [c d] eqn:Et. unfold Cexp, Cconj, RtoC, Cmult, Re. cbn [fst snd].
  destruct (list_eq_dec Z.eq_dec s t) as [<-|N].
  - rewrite Es in Et. injection Et as <- <-. apply Req_le. pose proof (sin2_cos2 b) as X. unfold Rsqr in X.
    transitivity (exp a * H s s * exp a * (sin b * sin b + cos b * cos b))%R; [rewrite X|]; ring.
  - specialize (HN s t Hs Ht N). pose proof (COS_bound (b - d)) as [_ CB]. rewrite cos_minus in CB. pose proof (exp_pos a). pose proof (exp_pos c).
    assert (E : (0 < exp a * exp c)%R) by now apply Rmult_lt_0_compat. set (q := (cos b * cos d + sin b * sin d)%R) in *.
    match goal with |- (_ <= ?r)%R => replace r with (exp a * exp c * H s t * q)%R by (unfold q; ring) end.
    match goal with |- (?r <= _)%R => replace r with (exp a * exp c * H s t)%R by ring end.
    clearbody q. assert (Z0 : (exp a * exp c * H s t <= 0)%R) by nra. set (z := (exp a * exp c * H s t)%R) in *. clearbody z. nra.
Qed.
Lemma rotated_offdiagonal pbc shape s t : s <> t -> (IZR (heisenberg_element (-2) (shape_bonds shape pbc) s t) <= 0)%R.
Proof. intros N. rewrite element_off by assumption. apply IZR_le. pose proof (joins_nonneg s t (shape_bonds shape pbc)). lia. Qed.
Lemma hamming_zero s : forall t, length s = length t -> hamming s t = 0%nat -> s = t.
Proof.
  induction s as [|x s IH]; intros [|y t] L E; try discriminate; [reflexivity|]. cbn [hamming] in E. destruct (Z.eqb_spec x y); [|lia]. subst. f_equal. apply IH; cbn in *; lia.
Qed.
Lemma ising_offdiagonal J h bonds s t : (0 <= h)%R -> length s = length t -> s <> t -> (ising_element J h bonds s t <= 0)%R.
Proof.
  intros Hh L N. unfold ising_element. destruct (hamming s t) as [|[|k]] eqn:E; [exfalso; apply N; now apply hamming_zero|lra|lra].
Qed.
