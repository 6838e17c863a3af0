(** Lemmas for the Ising operator. *)
From Coq Require Import List ZArith Reals Lra Lia Bool Arith.
From Verif Require Import Base Cplx LatticeSpec IsingModel.
Import ListNotations.
Local Open Scope R_scope.

Lemma mapM_ok {A B} (f : A -> res B) (g : A -> B) l : (forall a, In a l -> f a = Ok (g a)) ->
  mapM f l = Ok (map g l).
Proof.
  induction l as [|a l IH]; intros H; cbn [mapM map]; auto.
  rewrite H by now left. cbn [bind]. rewrite IH by (intros; apply H; now right). reflexivity.
Qed.

(** * Bonds *)
Lemma Rsum_seq_S {f : nat -> R} a n : Rsum f (seq a (S n)) = Rsum f (seq a n) + f (a + n)%nat.
Proof. rewrite seq_S, Rsum_app, Rsum_cons, Rsum_nil. ring. Qed.

(** A sum over the sites of a chain of a term that is [g i (i+1)] in the bulk and [g (n-1) 0] (periodic) or 0
    (open) at the end is a sum over the bonds. *)
Lemma chain_sum (n : nat) (pbc : bool) (g : nat -> nat -> R) (f : nat -> R) :
  (1 < n)%nat \/ (pbc = false /\ 0 < n)%nat ->
  (forall i, (i + 1 < n)%nat -> f i = g i (S i)) ->
  f (n - 1)%nat = (if pbc then g (n - 1)%nat 0%nat else 0) ->
  Rsum f (range n) = Rsum (fun b => g (fst b) (snd b)) (chain_bonds n pbc).
Proof.
  intros Hn Hb He. unfold chain_bonds, range. rewrite Rsum_app, Rsum_map.
  destruct n as [|n]; [destruct Hn; lia|]. rewrite Rsum_seq_S.
  replace (S n - 1)%nat with n in * by lia. f_equal.
  - apply Rsum_ext. intros i Hi. apply in_seq in Hi. cbn [fst snd]. apply Hb. lia.
  - rewrite Nat.add_0_l, He. destruct pbc.
    + assert (1 <? S n = true)%nat as -> by (apply Nat.ltb_lt; lia). cbn [andb].
      rewrite Rsum_cons, Rsum_nil. cbn [fst snd]. ring.
    + reflexivity.
Qed.

Lemma mel1_sum J pbc n s : (1 < n)%nat \/ (pbc = false /\ 0 < n)%nat ->
  Rsum (mel1 J pbc n s) (range n) =
  - J * Rsum (fun b => IZR (spin s (fst b) * spin s (snd b))) (chain_bonds n pbc).
Proof.
  intros Hn. rewrite (chain_sum n pbc (fun i i' => - J * IZR (spin s i * spin s i'))); auto.
  - now rewrite <- Rsum_scal.
  - intros i Hi. unfold mel1, padded1. replace (i + 1)%nat with (S i) by lia.
    rewrite (proj2 (Nat.ltb_lt (S i) n)) by lia. unfold get1, spin. rewrite mult_IZR. ring.
  - unfold mel1, padded1. replace (n - 1 + 1)%nat with n by lia. rewrite Nat.ltb_irrefl.
    destruct pbc; [|ring]. rewrite Nat.mod_same by lia. unfold get1, spin. rewrite mult_IZR. ring.
Qed.

Lemma mel2_split J pbc n m s i j :
  mel2 J pbc n m s i j =
  (if (1 <? n)%nat then - J * IZR (get2 m s i j) * IZR (padded2 pbc n m s (i + 1) j) else 0) +
  (if (1 <? m)%nat then - J * IZR (get2 m s i j) * IZR (padded2 pbc n m s i (j + 1)) else 0).
Proof. unfold mel2. destruct (1 <? n)%nat, (1 <? m)%nat; ring. Qed.

Lemma chain_bonds_one pbc : chain_bonds 1 pbc = [].
Proof. unfold chain_bonds. now destruct pbc. Qed.

Lemma mel2_sum J pbc n m s : (0 < n)%nat -> (0 < m)%nat ->
  Rsum (fun i => Rsum (mel2 J pbc n m s i) (range m)) (range n) =
  - J * Rsum (fun b => IZR (spin s (fst b) * spin s (snd b))) (grid_bonds n m pbc).
Proof.
  intros Hn Hm. unfold grid_bonds. rewrite Rsum_app, !Rsum_flat_map, Rmult_plus_distr_l.
  rewrite (Rsum_ext _ (fun i =>
    Rsum (fun j => if (1 <? n)%nat then - J * IZR (get2 m s i j) * IZR (padded2 pbc n m s (i + 1) j) else 0) (range m) +
    Rsum (fun j => if (1 <? m)%nat then - J * IZR (get2 m s i j) * IZR (padded2 pbc n m s i (j + 1)) else 0) (range m))).
  2: { intros i _. rewrite <- Rsum_plus. apply Rsum_ext. intros j _. apply mel2_split. }
  rewrite Rsum_plus. f_equal.
  - rewrite Rsum_exchange, <- Rsum_scal. apply Rsum_ext. intros j Hj. apply in_range in Hj.
    rewrite Rsum_map, <- Rsum_scal.
    destruct (Nat.ltb_spec 1 n) as [H|H].
    + rewrite (chain_sum n pbc (fun i i' => - J * IZR (spin s (i * m + j) * spin s (i' * m + j)))); auto.
      * intros i Hi. unfold padded2. replace (i + 1)%nat with (S i) by lia.
        rewrite (proj2 (Nat.ltb_lt (S i) n)), (proj2 (Nat.ltb_lt j m)) by lia. cbn [andb].
        unfold get2, spin. rewrite mult_IZR. ring.
      * unfold padded2. replace (n - 1 + 1)%nat with n by lia. rewrite Nat.ltb_irrefl. cbn [andb].
        destruct pbc; [|ring]. rewrite Nat.mod_same, (Nat.mod_small j m) by lia.
        unfold get2, spin. rewrite mult_IZR. ring.
    + replace n with 1%nat by lia. rewrite chain_bonds_one, Rsum_zero. reflexivity.
  - rewrite <- Rsum_scal. apply Rsum_ext. intros i Hi. apply in_range in Hi.
    rewrite Rsum_map, <- Rsum_scal.
    destruct (Nat.ltb_spec 1 m) as [H|H].
    + rewrite (chain_sum m pbc (fun j j' => - J * IZR (spin s (i * m + j) * spin s (i * m + j')))); auto.
      * intros j Hj. unfold padded2. replace (j + 1)%nat with (S j) by lia.
        rewrite (proj2 (Nat.ltb_lt i n)), (proj2 (Nat.ltb_lt (S j) m)) by lia. cbn [andb].
        unfold get2, spin. rewrite mult_IZR. ring.
      * unfold padded2. replace (m - 1 + 1)%nat with m by lia. rewrite Nat.ltb_irrefl, andb_false_r.
        destruct pbc; [|ring]. rewrite Nat.mod_same, (Nat.mod_small i n) by lia.
        unfold get2, spin. rewrite mult_IZR. ring.
    + replace m with 1%nat by lia. rewrite chain_bonds_one, Rsum_zero. reflexivity.
Qed.

(** * Flips and Hamming distance *)
Lemma hamming_0 s : forall t, length s = length t -> (hamming s t = 0%nat <-> s = t).
Proof.
  induction s as [|a s IH]; intros [|b t] L; simpl in L; try lia; cbn [hamming]; [tauto|].
  destruct (Z.eqb_spec a b) as [->|N].
  - rewrite Nat.add_0_l, IH by lia. split; congruence.
  - split; [discriminate|]. intros E. congruence.
Qed.

Lemma flip_count s : forall t, Forall is_spin s -> Forall is_spin t -> length s = length t ->
  Rsum (fun k => if list_eq_dec Z.eq_dec (flip_site s k) t then 1 else 0) (range (length s)) =
  if (hamming s t =? 1)%nat then 1 else 0.
Proof.
  induction s as [|a s IH]; intros [|b t] Fs Ft L; simpl in L; try lia; [reflexivity|].
  inversion Fs as [|? ? Ha Fs']; inversion Ft as [|? ? Hb Ft']; subst.
  cbn [length hamming]. unfold range. cbn [seq]. rewrite Rsum_cons, <- seq_shift, Rsum_map.
  destruct (Z.eqb_spec a b) as [->|N].
  - rewrite Nat.add_0_l.
    destruct (list_eq_dec Z.eq_dec (flip_site (b :: s) 0) (b :: t)) as [E|_].
    { unfold flip_site in E. cbn [upd nth] in E. injection E as E1 E2. destruct Hb; lia. }
    rewrite <- (IH t) by (auto; lia). rewrite Rplus_0_l. apply Rsum_ext. intros k _.
    unfold flip_site at 1. cbn [upd nth]. fold (flip_site s k).
    destruct (list_eq_dec Z.eq_dec (b :: flip_site s k) (b :: t)) as [E|E];
      destruct (list_eq_dec Z.eq_dec (flip_site s k) t) as [E'|E']; auto; exfalso; congruence.
  - rewrite (Rsum_ext _ (fun _ => 0)).
    2: { intros k _. unfold flip_site. cbn [upd nth].
         destruct (list_eq_dec Z.eq_dec _ _) as [E|E]; [injection E; intros; congruence|reflexivity]. }
    rewrite Rsum_zero, Rplus_0_r. unfold flip_site. cbn [upd nth].
    replace (a * -1)%Z with b by (destruct Ha, Hb; lia).
    replace (1 + hamming s t =? 1)%nat with (hamming s t =? 0)%nat.
    2: { destruct (hamming s t); reflexivity. }
    destruct (list_eq_dec Z.eq_dec (b :: s) (b :: t)) as [E|E].
    + injection E as ->. rewrite (proj2 (hamming_0 t t eq_refl) eq_refl). reflexivity.
    + destruct (Nat.eqb_spec (hamming s t) 0) as [E'|E']; auto.
      apply hamming_0 in E'; [congruence|lia].
Qed.


Lemma combine_repeat {A B} (l : list A) (x : B) : combine l (repeat x (length l)) = map (fun a => (a, x)) l.
Proof. induction l; simpl; auto. now rewrite IHl. Qed.

Lemma ising_row s t J h bonds : Forall is_spin s -> Forall is_spin t -> length s = length t ->
  row_sum (s :: map (flip_site s) (range (length s)))
    (- J * Rsum (fun b => IZR (spin s (fst b) * spin s (snd b))) bonds :: repeat (- h) (length s)) t
  = ising_element J h bonds s t.
Proof.
  intros Fs Ft L. unfold row_sum. cbn [combine]. rewrite Rsum_cons. cbn [fst snd].
  rewrite <- (range_length (length s)) at 2. rewrite <- (map_length (flip_site s)), combine_repeat, !Rsum_map.
  cbn [fst snd].
  rewrite (Rsum_ext _ (fun k => - h * (if list_eq_dec Z.eq_dec (flip_site s k) t then 1 else 0))).
  2: { intros k _. destruct (list_eq_dec _ _ _); ring. }
  rewrite Rsum_scal, flip_count by auto. unfold ising_element.
  destruct (list_eq_dec Z.eq_dec s t) as [E|E].
  - subst. rewrite (proj2 (hamming_0 t t eq_refl) eq_refl). cbn [Nat.eqb]. ring.
  - pose proof (hamming_0 s t L) as H0. destruct (hamming s t) as [|[|k]]; cbn [Nat.eqb].
    + exfalso. apply E, H0. reflexivity.
    + ring.
    + ring.
Qed.

Lemma self_mel_ok J pbc shape s : good_shape shape pbc ->
  self_mel J pbc shape s =
  Ok (- J * Rsum (fun b => IZR (spin s (fst b) * spin s (snd b))) (shape_bonds shape pbc)).
Proof.
  intros [(n & -> & H)|(n & m & -> & H1 & H2)]; cbn [self_mel shape_bonds]; f_equal.
  - now apply mel1_sum.
  - now apply mel2_sum.
Qed.


Lemma nth_map_in {A B} (f : A -> B) l i d d' : (i < length l)%nat -> nth i (map f l) d = f (nth i l d').
Proof.
  intros H. rewrite (nth_indep _ d (f d')) by (now rewrite map_length). apply map_nth.
Qed.

Lemma nth_repeat_lt {A} (x d : A) n i : (i < n)%nat -> nth i (repeat x n) d = x.
Proof.
  revert i; induction n; intros [|i] H; simpl; auto; try lia. apply IHn; lia.
Qed.

Lemma map_repeat {A B} (f : A -> B) x n : map f (repeat x n) = repeat (f x) n.
Proof. induction n; simpl; auto. now rewrite IHn. Qed.


Lemma ising_find_conn_ok J h pbc shape sample : good_shape shape pbc ->
  exists conn mel use, ising_find_conn J h pbc shape sample = Ok (conn, mel, use) /\
    length conn = ising_max_conn shape /\ length mel = ising_max_conn shape /\
    use = repeat (repeat true (length sample)) (ising_max_conn shape) /\
    forall b, (b < length sample)%nat ->
      let s := nth b sample [] in
      column b [] conn = s :: map (flip_site s) (range (sites_of shape)) /\
      column b 0 mel = store h (- J * Rsum (fun b => IZR (spin s (fst b) * spin s (snd b))) (shape_bonds shape pbc))
                        :: repeat (neg_h h) (sites_of shape).
Proof.
  intros Hs. unfold ising_find_conn.
  assert (check_dims shape = Ok tt) as ->.
  { destruct Hs as [(n & -> & _)|(n & m & -> & _)]; reflexivity. }
  cbn [bind]. rewrite (mapM_ok _ _ _ (fun s _ => self_mel_ok J pbc shape s Hs)). cbn [bind].
  unfold ising_max_conn. fold (sites_of shape).
  eexists _, _, _. split; [reflexivity|]. split; [|split; [|split]].
  - cbn [length]. rewrite map_length, range_length. lia.
  - cbn [length]. rewrite repeat_length. lia.
  - now rewrite Nat.add_1_r.
  - intros b Hb. cbv zeta. unfold column. cbn [map]. split; f_equal.
    + rewrite map_map. apply map_ext. intros k.
      now rewrite (nth_map_in _ _ _ [] []).
    + rewrite map_map.
      rewrite (nth_map_in _ _ _ 0 []); auto.
    + rewrite map_repeat. f_equal. now apply nth_repeat_lt.
Qed.

Lemma ising_rows J h pbc shape sample : good_shape shape pbc ->
  exists conn mel use, ising_find_conn J (PyFloat h) pbc shape sample = Ok (conn, mel, use) /\
    length conn = ising_max_conn shape /\
    (forall r, In r use -> forall u, In u r -> u = true) /\
    forall b s, nth_error sample b = Some s -> spins (sites_of shape) s ->
      nth 0 (column b [] conn) [] = s /\
      forall t, spins (sites_of shape) t ->
        row_sum (column b [] conn) (column b 0 mel) t = ising_element J h (shape_bonds shape pbc) s t.
Proof.
  intros Hs. destruct (ising_find_conn_ok J (PyFloat h) pbc shape sample Hs) as (conn & mel & use & E & L1 & L2 & U & H).
  exists conn, mel, use. split; [exact E|]. split; [exact L1|]. split.
  { intros r Hr u Hu. subst use. apply repeat_spec in Hr. subst r. now apply repeat_spec in Hu. }
  intros b s Hb [Ls Fs]. assert (Hlt : (b < length sample)%nat) by (apply nth_error_Some; congruence).
  specialize (H b Hlt). rewrite (nth_error_nth _ _ [] Hb) in H. cbv zeta in H. destruct H as [-> ->].
  split; [reflexivity|]. intros t [Lt Ft]. cbn [store neg_h]. rewrite <- Ls. apply ising_row; auto; lia.
Qed.

Lemma ising_int_field J z pbc shape sample : good_shape shape pbc ->
  exists conn mel use, ising_find_conn J (PyInt z) pbc shape sample = Ok (conn, mel, use) /\
    forall b s, nth_error sample b = Some s ->
      nth 0 (column b 0 mel) 0 =
      IZR (trunc (- J * Rsum (fun b => IZR (spin s (fst b) * spin s (snd b))) (shape_bonds shape pbc))).
Proof.
  intros Hs. destruct (ising_find_conn_ok J (PyInt z) pbc shape sample Hs) as (conn & mel & use & E & L1 & L2 & U & H).
  exists conn, mel, use. split; [exact E|]. intros b s Hb.
  assert (Hlt : (b < length sample)%nat) by (apply nth_error_Some; congruence).
  specialize (H b Hlt). rewrite (nth_error_nth _ _ [] Hb) in H. cbv zeta in H. destruct H as [_ ->]. reflexivity.
Qed.

Lemma trunc_half : trunc (- (1 / 2) * 1) = 0%Z.
Proof.
  unfold trunc. destruct (Rle_dec 0 (- (1 / 2) * 1)); [lra|].
  replace (- (- (1 / 2) * 1)) with (1 / 2) by lra.
  assert (E : Int_part (1 / 2) = 0%Z).
  { unfold Int_part. assert (up (1 / 2) = 1%Z) as ->; [|reflexivity].
    symmetry. apply tech_up; simpl; lra. }
  rewrite E. reflexivity.
Qed.

Lemma ising_int_refuted :
  exists conn mel use, ising_find_conn (1 / 2) (PyInt 1) false [2%nat] [[1; 1]%Z] = Ok (conn, mel, use) /\
    nth 0 (column 0 0 mel) 0 = 0 /\
    ising_element (1 / 2) 1 (chain_bonds 2 false) [1; 1]%Z [1; 1]%Z = - (1 / 2).
Proof.
  assert (G : good_shape [2%nat] false) by (left; exists 2%nat; split; [reflexivity | lia]).
  destruct (ising_int_field (1 / 2) 1 false [2%nat] [[1; 1]%Z] G) as (c & m & u & E & H).
  exists c, m, u. split; [exact E|]. split.
  - rewrite (H 0%nat [1; 1]%Z eq_refl). cbn [shape_bonds].
    unfold chain_bonds. cbn [Nat.sub seq map app andb]. rewrite Rsum_cons, Rsum_nil. cbn [fst snd spin nth].
    change (1 * 1)%Z with 1%Z. rewrite Rplus_0_r, trunc_half. reflexivity.
  - unfold ising_element, chain_bonds. cbn [hamming Z.eqb Pos.eqb Nat.add Nat.sub seq map app andb].
    rewrite Rsum_cons, Rsum_nil. cbn [fst snd spin nth]. change (1 * 1)%Z with 1%Z. lra.
Qed.

Lemma ising_single_site_ring J h s : s = 1%Z \/ s = (-1)%Z ->
  (exists conn mel use, ising_find_conn J (PyFloat h) true [1%nat] [[s]] = Ok (conn, mel, use) /\
     nth 0 (column 0 0 mel) 0 = - J) /\
  (exists conn mel use, ising_find_conn J (PyFloat h) true [1%nat; 1%nat] [[s]] = Ok (conn, mel, use) /\
     nth 0 (column 0 0 mel) 0 = 0) /\
  ising_element J h (chain_bonds 1 true) [s] [s] = 0.
Proof.
  intros Hs. split; [|split].
  - eexists _, _, _. split; [reflexivity|]. cbn. unfold mel1, padded1. cbn.
    change (1 mod 1)%nat with 0%nat. destruct Hs as [-> | ->]; lra.
  - eexists _, _, _. split; [reflexivity|]. cbn. unfold mel2. cbn. lra.
  - rewrite chain_bonds_one. unfold ising_element. cbn. rewrite Z.eqb_refl. cbn. lra.
Qed.

Lemma ising_more_dims J h pbc a b c rest sample :
  ising_find_conn J h pbc (a :: b :: c :: rest) sample = Err AssertionError.
Proof. reflexivity. Qed.

(** The matrix is symmetric. *)
Lemma hamming_sym s : forall t, hamming s t = hamming t s.
Proof.
  induction s as [|a s IH]; intros [|b t]; cbn [hamming]; auto. rewrite IH. now rewrite Z.eqb_sym.
Qed.
Lemma ising_symmetric J h bonds s t : length s = length t ->
  ising_element J h bonds s t = ising_element J h bonds t s.
Proof.
  intros L. unfold ising_element. rewrite (hamming_sym t s). destruct (hamming s t) as [|[|k]] eqn:E; auto.
  apply hamming_0 in E; auto. now subst.
Qed.
