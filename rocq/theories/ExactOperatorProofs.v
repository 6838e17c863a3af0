(** The Ising and the Heisenberg operator represent Hermitian matrices. *)
From Coq Require Import List ZArith Reals Bool Arith Lia Lra Permutation.
From Verif Require Import Base Cplx LatticeSpec IsingModel IsingProofs HeisenbergModel HeisenbergProofs AutoregressiveSpec
  ObservableModel ObservableSpec ObservableProofs ExactModel ExactSpec ExactProofs.
Import ListNotations.
Local Open Scope nat_scope.

Lemma flip_site_length s k : length (flip_site s k) = length s.
Proof. unfold flip_site. apply upd_length. Qed.

Lemma ising_operator_represents J h pbc shape : good_shape shape pbc ->
  operator_represents (sites_of shape) (ising_matrix J h pbc shape) (ising_operator J h pbc shape).
Proof.
  intros G samples _ Hs.
  destruct (ising_represents J h pbc shape samples G) as (conn & mel & use & E & HR).
  { intros s I. apply spins_in. now apply Hs. }
  exists (ising_max_conn shape), (of_real_arrays conn mel use). split.
  { cbn [find_conn ising_operator]. rewrite E. reflexivity. }
  split; [unfold ising_max_conn; lia|]. split; [exact HR|]. split.
  - cbn [declared_max ising_operator]. intros k Ek. injection Ek as <-. lia.
  - intros row s Hr Hrow. cbn [conns of_real_arrays] in Hr. revert E. unfold ising_find_conn.
    destruct (check_dims shape); [|discriminate]. cbn [bind]. rewrite (mapM_ok _ _ _ (fun s _ => self_mel_ok J pbc shape s G)). cbn [bind].
    intros E. injection E as <- _ _. assert (L : forall x, In x samples -> length x = sites_of shape).
    { intros x Hx. apply Hs in Hx. apply spins_in in Hx. now destruct Hx. }
    destruct Hr as [<-|Hr]; [now apply L|]. apply in_map_iff in Hr. destruct Hr as (k & <- & _).
    apply in_map_iff in Hrow. destruct Hrow as (x & <- & Hx). rewrite flip_site_length. now apply L.
Qed.

Lemma write_lengths off n1 s n w st : Forall (fun c => length c = n) (all_conn (fst st)) ->
  Forall (fun c => length c = n) (all_conn (fst (apply_write off n1 s st w))).
Proof.
  intros F. destruct w as [[k [i j]] [[i' j']|]]; cbn [apply_write fst]; unfold write_bond, write_open; cbn [all_conn]; [|exact F].
  apply Forall_forall. intros c Hc. apply (In_nth _ _ []) in Hc. destruct Hc as (q & Hq & <-). rewrite upd_length in Hq.
  rewrite Forall_forall in F. destruct (Nat.eq_dec q (S k)) as [->|N].
  - rewrite nth_upd_same by exact Hq. unfold set2. rewrite !upd_length. apply F. now apply nth_In.
  - rewrite nth_upd_other by auto. apply F. now apply nth_In.
Qed.
Lemma column_lengths off pbc dim n0 n1 s b : Forall (fun c => length c = length s) (all_conn (column_find_conn off pbc dim n0 n1 s b)).
Proof.
  unfold column_find_conn. rewrite calc_writes.
  assert (G : forall W st, Forall (fun c => length c = length s) (all_conn (fst st)) ->
    Forall (fun c => length c = length s) (all_conn (fst (fold_left (apply_write off n1 s) W st)))).
  { induction W as [|w W IH]; intros st F; cbn [fold_left]; auto. apply IH. now apply write_lengths. }
  match goal with |- context [fold_left ?f ?W ?st] => pose proof (G W st) as Q; destruct (fold_left f W st) as [b' self] end.
  cbn [all_conn fst] in *. apply Q. apply Forall_forall. intros c Hc. apply repeat_spec in Hc. now subst.
Qed.

Lemma heisenberg_operator_represents shape rot pbc batches H : chain_or_grid shape ->
  run_calls (heisenberg_init shape rot pbc) batches = Ok H ->
  operator_represents (sites_of shape) (heisenberg_matrix rot pbc shape) (heisenberg_operator H).
Proof.
  intros G EH samples _ Hs.
  destruct (heisenberg_represents shape rot pbc batches samples G) as (H' & H1 & ref & E0 & E1 & HR).
  { intros s I. apply spins_in. now apply Hs. }
  assert (H' = H) by congruence. subst H'.
  destruct (run_calls_inv shape (off_diag rot) pbc batches G _ (init_inv shape rot pbc)) as (H' & E2 & I).
  assert (H' = H) by congruence. subst H'.
  destruct (find_conn_step _ _ _ H samples G I) as (H1' & E3 & _ & _ & R1 & _).
  assert (X : (H1, ref) = (H1', length samples)) by congruence. injection X as <- ->.
  pose proof (inv_conn _ _ _ _ I) as EC.
  eexists (max_number_of_local_connections shape), _. split.
  { cbn [find_conn heisenberg_operator]. rewrite E1. cbn [bind fst snd]. rewrite EC. reflexivity. }
  split; [unfold max_number_of_local_connections; lia|]. split; [exact HR|]. split.
  - cbn [declared_max heisenberg_operator]. intros k Ek. injection Ek as <-. rewrite EC. lia.
  - intros row s Hr Hrow. unfold of_samples in Hr. cbn [conns] in Hr. apply in_map_iff in Hr. destruct Hr as (k & <- & Hk).
    unfold range in Hk. apply in_seq in Hk. rewrite R1 in Hrow. apply in_map_iff in Hrow. destruct Hrow as (y & <- & Hy).
    apply in_map_iff in Hy. destruct Hy as (r & <- & Hr). cbn [fst snd].
    unfold fresh_contents in Hr. apply in_map_iff in Hr. destruct Hr as (x & <- & Hx).
    pose proof (Hs x Hx) as Sx. apply spins_in in Sx. destruct Sx as [Lx Fx].
    match goal with |- length (nth k (all_conn ?r) _) = _ => set (b := r) end.
    pose proof (column_lengths (off_diag rot) pbc (length shape) (rows_of shape) (cols_of shape) x
      (new_buffers (rows_of shape * cols_of shape * length shape + 1) (rows_of shape * cols_of shape))) as F.
    fold b in F. rewrite Forall_forall in F. rewrite <- Lx. apply F. apply nth_In.
    destruct (heisenberg_rows shape rot pbc batches [x] G) as (Ha & Hb & rf & Ea & Eb & Lb & HRow).
    assert (Ha = H) by congruence. subst Ha.
    destruct (find_conn_step _ _ _ H [x] G I) as (Hb' & Eb' & _ & _ & Rb & _).
    assert (X : (Hb, rf) = (Hb', 1)) by (cbn [length] in Eb'; congruence). injection X as <- ->.
    cbn [length] in Rb. destruct (HRow 0 x b) as (LL & _); [reflexivity|rewrite Rb; reflexivity|now split|]. lia.
Qed.

Lemma hamming_sym s : forall t, hamming s t = hamming t s.
Proof. induction s as [|a s IH]; intros [|b t]; cbn [hamming]; auto. rewrite IH, Z.eqb_sym. reflexivity. Qed.

Lemma ising_matrix_hermitian J h pbc shape : hermitian (sites_of shape) (ising_matrix J h pbc shape).
Proof.
  intros s t Hs Ht. unfold ising_matrix. rewrite Cconj_RtoC. f_equal. unfold ising_element. rewrite (hamming_sym t s).
  destruct (hamming s t) eqn:E; [|reflexivity]. apply spins_in in Hs. apply spins_in in Ht. destruct Hs as [Ls _]. destruct Ht as [Lt _].
  apply hamming_0 in E; [now subst|congruence].
Qed.

Lemma shape_bonds_ok shape pbc : chain_or_grid shape -> bonds_ok (sites_of shape) (shape_bonds shape pbc).
Proof.
  intros G. destruct (shape_bonds_grid shape pbc G) as [-> ->]. apply grid_bonds_ok.
Qed.
Lemma heisenberg_matrix_hermitian rot pbc shape : chain_or_grid shape -> hermitian (sites_of shape) (heisenberg_matrix rot pbc shape).
Proof.
  intros G s t Hs Ht. unfold heisenberg_matrix. rewrite Cconj_RtoC. do 2 f_equal.
  apply spins_in in Hs. apply spins_in in Ht. destruct Hs as [Ls _]. destruct Ht as [Lt _].
  eapply heisenberg_symmetric; eauto. now apply shape_bonds_ok.
Qed.
