(** Lemmas about the J1-J2 edge list. *)
From Coq Require Import List ZArith Lia Bool Arith Permutation.
From Verif Require Import Base J1J2Model J1J2Spec HeisenbergProofs.
Import ListNotations.

Lemma site_number_nat L2 h w : site_number L2 (Z.of_nat h) (Z.of_nat w) = w + L2 * h.
Proof. unfold site_number. nia. Qed.

Lemma zmod_small a n : (0 <= a < Z.of_nat n)%Z -> (a mod Z.of_nat n = a)%Z.
Proof. apply Z.mod_small. Qed.
Lemma zmod_wrap_up n : 0 < n -> (Z.of_nat n mod Z.of_nat n = 0)%Z.
Proof. intros. apply Z.mod_same. lia. Qed.
Lemma zmod_wrap_down n : 0 < n -> ((-1) mod Z.of_nat n = Z.of_nat n - 1)%Z.
Proof. intros. symmetry. apply (Z.mod_unique_pos _ _ (-1)); lia. Qed.

Lemma inner_perm L1 L2 pbc h w : 0 < L1 -> h < L1 -> w + 1 < L2 ->
  Permutation (inner_body L1 L2 pbc h w) (flat_map (bond_from L1 L2 pbc h w) directions).
Proof.
  intros HL Hh Hw. unfold directions. cbn [flat_map]. unfold bond_from. cbn beta iota zeta.
  rewrite site_number_nat, app_nil_r.
  (* right *)
  assert (Ew : ((Z.of_nat w + 1) mod Z.of_nat L2 = Z.of_nat (w + 1))%Z) by (rewrite zmod_small; lia).
  assert (Ew0 : ((Z.of_nat w + 0) mod Z.of_nat L2 = Z.of_nat w)%Z) by (rewrite zmod_small; lia).
  assert (Eh0 : ((Z.of_nat h + 0) mod Z.of_nat L1 = Z.of_nat h)%Z) by (rewrite zmod_small; lia).
  rewrite Ew, Ew0, Eh0, site_number_nat.
  assert (I1 : inside_grid L1 L2 (Z.of_nat h + 0) (Z.of_nat w + 1) = true).
  { unfold inside_grid. rewrite !andb_true_iff, !Z.leb_le, !Z.ltb_lt. lia. }
  rewrite I1, orb_true_r. unfold inner_body.
  destruct (Nat.ltb_spec h (L1 - 1)) as [H1|H1].
  - assert (Eh : ((Z.of_nat h + 1) mod Z.of_nat L1 = Z.of_nat (h + 1))%Z) by (rewrite zmod_small; lia).
    rewrite Eh, !site_number_nat.
    assert (I2 : inside_grid L1 L2 (Z.of_nat h + 1) (Z.of_nat w + 0) = true).
    { unfold inside_grid. rewrite !andb_true_iff, !Z.leb_le, !Z.ltb_lt. lia. }
    assert (I3 : inside_grid L1 L2 (Z.of_nat h + 1) (Z.of_nat w + 1) = true).
    { unfold inside_grid. rewrite !andb_true_iff, !Z.leb_le, !Z.ltb_lt. lia. }
    rewrite I2, I3, !orb_true_r. cbn [app]. do 3 apply perm_skip.
    destruct (Nat.ltb_spec 0 h) as [H2|H2].
    + assert (I4 : inside_grid L1 L2 (Z.of_nat h + -1) (Z.of_nat w + 1) = true).
      { unfold inside_grid. rewrite !andb_true_iff, !Z.leb_le, !Z.ltb_lt. lia. }
      rewrite I4, orb_true_r. replace (Z.of_nat h + -1)%Z with (Z.of_nat (h - 1)) by lia.
      rewrite zmod_small, site_number_nat by lia. apply Permutation_refl.
    + assert (h = 0) by lia. subst h.
      assert (I4 : inside_grid L1 L2 (Z.of_nat 0 + -1) (Z.of_nat w + 1) = false).
      { unfold inside_grid. reflexivity. }
      rewrite I4, orb_false_r. destruct pbc; [|apply Permutation_refl].
      change (Z.of_nat 0 + -1)%Z with (-1)%Z. rewrite zmod_wrap_down by lia.
      replace (Z.of_nat L1 - 1)%Z with (Z.of_nat (L1 - 1)) by lia. rewrite site_number_nat. apply Permutation_refl.
  - assert (Eh : ((Z.of_nat h + 1) mod Z.of_nat L1 = Z.of_nat 0)%Z).
    { replace (Z.of_nat h + 1)%Z with (Z.of_nat L1) by lia. now apply zmod_wrap_up. }
    rewrite Eh, !site_number_nat.
    assert (I2 : inside_grid L1 L2 (Z.of_nat h + 1) (Z.of_nat w + 0) = false).
    { unfold inside_grid. rewrite (proj2 (Z.ltb_ge (Z.of_nat h + 1) _)) by lia. now rewrite andb_false_r. }
    assert (I3 : inside_grid L1 L2 (Z.of_nat h + 1) (Z.of_nat w + 1) = false).
    { unfold inside_grid. rewrite (proj2 (Z.ltb_ge (Z.of_nat h + 1) _)) by lia. now rewrite andb_false_r. }
    rewrite I2, I3, !orb_false_r, Nat.mul_0_r, !Nat.add_0_r.
    cbn [app]. apply perm_skip.
    apply Permutation_trans with ((if pbc then [(w + L2 * h, w, 1); (w + L2 * h, w + 1, 2)] else []) ++
      (if pbc || inside_grid L1 L2 (Z.of_nat h + -1) (Z.of_nat w + 1) then
        [(w + L2 * h, site_number L2 ((Z.of_nat h + -1) mod Z.of_nat L1) (Z.of_nat (w + 1)), 2)] else [])).
    2: { destruct pbc; apply Permutation_refl. }
    apply Permutation_app_head.
    destruct (Nat.ltb_spec 0 h) as [H2|H2].
    + assert (I4 : inside_grid L1 L2 (Z.of_nat h + -1) (Z.of_nat w + 1) = true).
      { unfold inside_grid. rewrite !andb_true_iff, !Z.leb_le, !Z.ltb_lt. lia. }
      rewrite I4, orb_true_r. replace (Z.of_nat h + -1)%Z with (Z.of_nat (h - 1)) by lia.
      rewrite zmod_small, site_number_nat by lia. apply Permutation_refl.
    + assert (h = 0) by lia. subst h.
      assert (I4 : inside_grid L1 L2 (Z.of_nat 0 + -1) (Z.of_nat w + 1) = false).
      { unfold inside_grid. reflexivity. }
      rewrite I4, orb_false_r. destruct pbc; [|apply Permutation_refl].
      change (Z.of_nat 0 + -1)%Z with (-1)%Z. rewrite zmod_wrap_down by lia.
      replace (Z.of_nat L1 - 1)%Z with (Z.of_nat (L1 - 1)) by lia. rewrite site_number_nat. apply Permutation_refl.
Qed.

Lemma last_perm L1 L2 pbc h : 0 < L1 -> h < L1 -> 0 < L2 ->
  Permutation (last_column L1 L2 pbc h) (flat_map (bond_from L1 L2 pbc h (L2 - 1)) directions).
Proof.
  intros HL Hh HL2. unfold directions. cbn [flat_map]. unfold bond_from. cbn beta iota zeta.
  rewrite site_number_nat, app_nil_r.
  assert (Ew : ((Z.of_nat (L2 - 1) + 1) mod Z.of_nat L2 = Z.of_nat 0)%Z).
  { replace (Z.of_nat (L2 - 1) + 1)%Z with (Z.of_nat L2) by lia. now apply zmod_wrap_up. }
  assert (Ew0 : ((Z.of_nat (L2 - 1) + 0) mod Z.of_nat L2 = Z.of_nat (L2 - 1))%Z) by (rewrite zmod_small; lia).
  assert (Eh0 : ((Z.of_nat h + 0) mod Z.of_nat L1 = Z.of_nat h)%Z) by (rewrite zmod_small; lia).
  assert (Eh1 : ((Z.of_nat h + 1) mod Z.of_nat L1 = Z.of_nat ((h + 1) mod L1))%Z).
  { rewrite Nat2Z.inj_mod. f_equal. lia. }
  assert (Eh2 : ((Z.of_nat h + -1) mod Z.of_nat L1 = Z.of_nat ((L1 + h - 1) mod L1))%Z).
  { rewrite Nat2Z.inj_mod. replace (Z.of_nat (L1 + h - 1)) with (Z.of_nat h + -1 + 1 * Z.of_nat L1)%Z by lia.
    rewrite Z.mod_add by lia. reflexivity. }
  rewrite Ew, Ew0, Eh0, Eh1, Eh2, !site_number_nat, !Nat.add_0_l.
  assert (I : forall x, inside_grid L1 L2 x (Z.of_nat (L2 - 1) + 1) = false).
  { intros x. unfold inside_grid. rewrite (proj2 (Z.ltb_ge (Z.of_nat (L2 - 1) + 1) _)) by lia.
    now rewrite andb_false_r. }
  rewrite !I, !orb_false_r. unfold last_column.
  assert (D : (if pbc || inside_grid L1 L2 (Z.of_nat h + 1) (Z.of_nat (L2 - 1) + 0)
               then [(L2 - 1 + L2 * h, L2 - 1 + L2 * ((h + 1) mod L1), 1)] else []) =
              (if h <? L1 - 1 then [(L2 - 1 + L2 * h, L2 - 1 + L2 * (h + 1), 1)]
               else if pbc then [(L2 - 1 + L2 * h, L2 - 1, 1)] else [])).
  { destruct (Nat.ltb_spec h (L1 - 1)) as [H|H].
    - assert (inside_grid L1 L2 (Z.of_nat h + 1) (Z.of_nat (L2 - 1) + 0) = true) as ->.
      { unfold inside_grid. rewrite !andb_true_iff, !Z.leb_le, !Z.ltb_lt. lia. }
      rewrite orb_true_r, Nat.mod_small by lia. reflexivity.
    - assert (inside_grid L1 L2 (Z.of_nat h + 1) (Z.of_nat (L2 - 1) + 0) = false) as ->.
      { unfold inside_grid. rewrite (proj2 (Z.ltb_ge (Z.of_nat h + 1) _)) by lia. now rewrite andb_false_r. }
      rewrite orb_false_r. replace (h + 1) with L1 by lia. rewrite Nat.mod_same by lia.
      destruct pbc; [|reflexivity]. now rewrite Nat.mul_0_r, Nat.add_0_r. }
  rewrite D. clear D. destruct pbc; cbn [app].
  - apply perm_skip.
    match goal with |- Permutation (?a :: ?b :: ?c) _ => change (a :: b :: c) with ([a; b] ++ c) end.
    apply Permutation_app_comm.
  - rewrite app_nil_r. apply Permutation_refl.
Qed.

Lemma Permutation_flat_map_ext {A B} (f g : A -> list B) l : (forall a, In a l -> Permutation (f a) (g a)) ->
  Permutation (flat_map f l) (flat_map g l).
Proof.
  induction l as [|a l IH]; intros H; cbn [flat_map]; auto. apply Permutation_app.
  - apply H. now left.
  - apply IH. intros; apply H; now right.
Qed.

Lemma edges_perm L1 L2 pbc : 0 < L1 -> 0 < L2 -> Permutation (edge_colors L1 L2 pbc) (lattice_edges L1 L2 pbc).
Proof.
  intros H1 H2. unfold edge_colors, lattice_edges, range. apply Permutation_flat_map_ext.
  intros h Hh. apply in_seq in Hh.
  destruct L2 as [|L]; [lia|]. rewrite seq_S, flat_map_app. cbn [flat_map]. rewrite app_nil_r, Nat.add_0_l.
  replace (S L - 1) with L by lia. apply Permutation_app.
  - apply Permutation_flat_map_ext. intros w Hw. apply in_seq in Hw. apply inner_perm; lia.
  - pose proof (last_perm L1 (S L) pbc h H1) as P. replace (S L - 1) with L in P by lia. apply P; lia.
Qed.

Lemma flat_map_length_le {A B} (f : A -> list B) k l : (forall a, In a l -> length (f a) <= k) ->
  length (flat_map f l) <= k * length l.
Proof.
  induction l as [|a l IH]; intros H; cbn [flat_map length]; [lia|]. rewrite app_length.
  assert (length (f a) <= k) by (apply H; now left).
  assert (length (flat_map f l) <= k * length l) by (apply IH; intros; apply H; now right). lia.
Qed.

Lemma edges_count L1 L2 pbc : 0 < L1 -> 0 < L2 ->
  exists m, j1j2_max_conn [L1; L2] = Ok m /\ length (edge_colors L1 L2 pbc) + 1 <= m.
Proof.
  intros H1 H2. eexists. split; [reflexivity|].
  rewrite (Permutation_length (edges_perm L1 L2 pbc H1 H2)). unfold lattice_edges.
  assert (length (flat_map (fun h => flat_map (fun w => flat_map (bond_from L1 L2 pbc h w) directions) (seq 0 L2)) (seq 0 L1))
          <= (4 * L2) * length (seq 0 L1)).
  { apply flat_map_length_le. intros h _. rewrite <- (seq_length L2 0) at 2.
    apply flat_map_length_le. intros w _. change 4 with (1 * length directions).
    apply flat_map_length_le. intros [[dh dw] c] _. unfold bond_from. destruct (_ || _); cbn [length]; lia. }
  rewrite seq_length in H. cbn [length fold_right].
  apply Nat.add_le_mono_r. eapply Nat.le_trans; [exact H|]. nia.
Qed.

Lemma pbc_edges_count L1 L2 : 0 < L1 -> 0 < L2 -> length (edge_colors L1 L2 true) = 4 * (L1 * L2).
Proof.
  intros H1 H2. rewrite (Permutation_length (edges_perm L1 L2 true H1 H2)). unfold lattice_edges.
  assert (E : forall {A B} (f : A -> list B) k l, (forall a, length (f a) = k) -> length (flat_map f l) = k * length l).
  { intros A B f k l H. induction l; cbn [flat_map length]; [lia|]. rewrite app_length, IHl, H. lia. }
  rewrite (E _ _ _ (4 * L2)); [rewrite seq_length; lia|]. intros h.
  rewrite (E _ _ _ 4); [now rewrite seq_length|]. intros w. reflexivity.
Qed.

(** * Each bond once *)
Lemma flat_map_bond_in L1 L2 pbc e : In e (lattice_edges L1 L2 pbc) -> exists h w d, h < L1 /\ w < L2 /\ In d directions /\
  In e (bond_from L1 L2 pbc h w d).
Proof.
  unfold lattice_edges. intros H. apply in_flat_map in H. destruct H as (h & Hh & H).
  apply in_flat_map in H. destruct H as (w & Hw & H). apply in_flat_map in H. destruct H as (d & Hd & H).
  apply in_seq in Hh, Hw. exists h, w, d. repeat split; auto; lia.
Qed.

Lemma site_number_inj L2 h w h' w' : (0 <= h)%Z -> (0 <= w < Z.of_nat L2)%Z -> (0 <= h')%Z -> (0 <= w' < Z.of_nat L2)%Z ->
  site_number L2 h w = site_number L2 h' w' -> h = h' /\ w = w'.
Proof.
  unfold site_number. intros. assert (E : (h * Z.of_nat L2 + w = h' * Z.of_nat L2 + w')%Z) by nia.
  assert (h = h').
  { destruct (Z.lt_trichotomy h h') as [L|[L|L]]; auto; exfalso; nia. }
  split; [auto|]. subst. lia.
Qed.

Lemma mod_diff a b n : (0 < n)%Z -> (a mod n = b mod n)%Z -> exists k, (a - b = k * n)%Z.
Proof.
  intros Hn E. exists (a / n - b / n)%Z.
  pose proof (Z.div_mod a n ltac:(lia)). pose proof (Z.div_mod b n ltac:(lia)). lia.
Qed.

Lemma small_multiple x k n : (x = k * n)%Z -> (-2 <= x <= 2)%Z -> (3 <= n)%Z -> x = 0%Z.
Proof. intros E B N. assert (k = 0%Z) by nia. subst k. lia. Qed.

(** Two bonds with the same end points come from the same site and direction. *)
Lemma bond_unique L1 L2 pbc h w d e h' w' d' e' :
  (pbc = true -> 3 <= L1 /\ 3 <= L2) -> h < L1 -> w < L2 -> h' < L1 -> w' < L2 ->
  In d directions -> In d' directions -> In e (bond_from L1 L2 pbc h w d) -> In e' (bond_from L1 L2 pbc h' w' d') ->
  undirected e = undirected e' -> h = h' /\ w = w' /\ d = d'.
Proof.
  intros HP Hh Hw Hh' Hw' Hd Hd' He He' HU.
  destruct d as [[dh dw] c], d' as [[dh' dw'] c']. unfold bond_from in He, He'. cbn beta iota zeta in He, He'.
  destruct (pbc || inside_grid L1 L2 (Z.of_nat h + dh) (Z.of_nat w + dw)) eqn:I; [|destruct He].
  destruct (pbc || inside_grid L1 L2 (Z.of_nat h' + dh') (Z.of_nat w' + dw')) eqn:I'; [|destruct He'].
  destruct He as [<-|[]], He' as [<-|[]]. unfold undirected in HU. cbn [fst snd] in HU.
  set (a := site_number L2 (Z.of_nat h) (Z.of_nat w)) in *.
  set (b := site_number L2 ((Z.of_nat h + dh) mod Z.of_nat L1) ((Z.of_nat w + dw) mod Z.of_nat L2)) in *.
  set (a' := site_number L2 (Z.of_nat h') (Z.of_nat w')) in *.
  set (b' := site_number L2 ((Z.of_nat h' + dh') mod Z.of_nat L1) ((Z.of_nat w' + dw') mod Z.of_nat L2)) in *.
  assert (M1 := Z.mod_pos_bound (Z.of_nat h + dh) (Z.of_nat L1) ltac:(lia)).
  assert (M2 := Z.mod_pos_bound (Z.of_nat w + dw) (Z.of_nat L2) ltac:(lia)).
  assert (M3 := Z.mod_pos_bound (Z.of_nat h' + dh') (Z.of_nat L1) ltac:(lia)).
  assert (M4 := Z.mod_pos_bound (Z.of_nat w' + dw') (Z.of_nat L2) ltac:(lia)).
  (* displacement facts: congruence forces equality *)
  assert (C1 : forall x y, (x mod Z.of_nat L1 = y mod Z.of_nat L1)%Z -> (-2 <= x - y <= 2)%Z ->
     (pbc = false -> 0 <= x < Z.of_nat L1 /\ 0 <= y < Z.of_nat L1)%Z -> x = y).
  { intros x y E B O. destruct pbc.
    - destruct (HP eq_refl). apply mod_diff in E; [|lia]. destruct E as [k E]. apply small_multiple in E; lia.
    - destruct (O eq_refl). rewrite !Z.mod_small in E by lia. lia. }
  assert (C2 : forall x y, (x mod Z.of_nat L2 = y mod Z.of_nat L2)%Z -> (-2 <= x - y <= 2)%Z ->
     (pbc = false -> 0 <= x < Z.of_nat L2 /\ 0 <= y < Z.of_nat L2)%Z -> x = y).
  { intros x y E B O. destruct pbc.
    - destruct (HP eq_refl). apply mod_diff in E; [|lia]. destruct E as [k E]. apply small_multiple in E; lia.
    - destruct (O eq_refl). rewrite !Z.mod_small in E by lia. lia. }
  assert (O1 : pbc = false -> (0 <= Z.of_nat h + dh < Z.of_nat L1 /\ 0 <= Z.of_nat w + dw < Z.of_nat L2)%Z).
  { intros ->. cbn [orb] in I. unfold inside_grid in I. rewrite !andb_true_iff, !Z.leb_le, !Z.ltb_lt in I. lia. }
  assert (O2 : pbc = false -> (0 <= Z.of_nat h' + dh' < Z.of_nat L1 /\ 0 <= Z.of_nat w' + dw' < Z.of_nat L2)%Z).
  { intros ->. cbn [orb] in I'. unfold inside_grid in I'. rewrite !andb_true_iff, !Z.leb_le, !Z.ltb_lt in I'. lia. }
  assert (R : (-1 <= dh <= 1 /\ 0 <= dw <= 1 /\ (dw = 0 -> dh = 1))%Z).
  { unfold directions in Hd. cbn [In] in Hd. repeat (destruct Hd as [Hd|Hd]; [injection Hd; intros; subst; lia|]). destruct Hd. }
  assert (R' : (-1 <= dh' <= 1 /\ 0 <= dw' <= 1 /\ (dw' = 0 -> dh' = 1))%Z).
  { unfold directions in Hd'. cbn [In] in Hd'. repeat (destruct Hd' as [Hd'|Hd']; [injection Hd'; intros; subst; lia|]). destruct Hd'. }
  assert (X : (a = a' /\ b = b') \/ (a = b' /\ b = a')).
  { injection HU as U1 U2. lia. }
  destruct X as [[Xa Xb]|[Xa Xb]].
  - apply site_number_inj in Xa; try lia. destruct Xa as [Xh Xw].
    assert (h = h') by lia. assert (w = w') by lia. subst h' w'.
    apply site_number_inj in Xb; try lia. destruct Xb as [Yh Yw].
    assert (dh = dh').
    { assert (Z.of_nat h + dh = Z.of_nat h + dh')%Z; [|lia]. apply C1; [exact Yh|lia|]. intros P; specialize (O1 P); specialize (O2 P); lia. }
    assert (dw = dw').
    { assert (Z.of_nat w + dw = Z.of_nat w + dw')%Z; [|lia]. apply C2; [exact Yw|lia|]. intros P; specialize (O1 P); specialize (O2 P); lia. }
    subst dh' dw'. split; [auto|]. split; [auto|].
    unfold directions in Hd, Hd'. cbn [In] in Hd, Hd'.
    destruct Hd as [Hd|[Hd|[Hd|[Hd|[]]]]]; destruct Hd' as [Hd'|[Hd'|[Hd'|[Hd'|[]]]]];
      injection Hd; injection Hd'; intros; subst; try discriminate; reflexivity.
  - exfalso.
    apply site_number_inj in Xa; try lia. destruct Xa as [Xh Xw].
    apply site_number_inj in Xb; try lia. destruct Xb as [Yh Yw].
    (* h = (h' + dh') mod, h' = (h + dh) mod *)
    assert (Q1 : (Z.of_nat h = Z.of_nat h + dh + dh')%Z).
    { destruct pbc.
      - destruct (HP eq_refl). 
        assert (E : ((Z.of_nat h) mod Z.of_nat L1 = (Z.of_nat h + dh + dh') mod Z.of_nat L1)%Z).
        { rewrite (Z.mod_small (Z.of_nat h)) by lia. rewrite <- (Z.add_mod_idemp_l (Z.of_nat h + dh)) by lia.
          rewrite Yh. exact Xh. }
        apply mod_diff in E; [|lia]. destruct E as [k E]. apply small_multiple in E; lia.
      - specialize (O1 eq_refl). specialize (O2 eq_refl). rewrite Z.mod_small in Xh, Yh by lia. lia. }
    assert (Q2 : (Z.of_nat w = Z.of_nat w + dw + dw')%Z).
    { destruct pbc.
      - destruct (HP eq_refl). 
        assert (E : ((Z.of_nat w) mod Z.of_nat L2 = (Z.of_nat w + dw + dw') mod Z.of_nat L2)%Z).
        { rewrite (Z.mod_small (Z.of_nat w)) by lia. rewrite <- (Z.add_mod_idemp_l (Z.of_nat w + dw)) by lia.
          rewrite Yw. exact Xw. }
        apply mod_diff in E; [|lia]. destruct E as [k E]. apply small_multiple in E; lia.
      - specialize (O1 eq_refl). specialize (O2 eq_refl). rewrite Z.mod_small in Xw, Yw by lia. lia. }
    lia.
Qed.

Lemma map_flat_map {A B C} (g : B -> C) (f : A -> list B) l : map g (flat_map f l) = flat_map (fun a => map g (f a)) l.
Proof. induction l; cbn [flat_map]; auto. now rewrite map_app, IHl. Qed.

Lemma directions_NoDup : NoDup directions.
Proof. unfold directions. repeat constructor; cbn [In]; intuition discriminate. Qed.

Lemma edges_NoDup L1 L2 pbc : 0 < L1 -> 0 < L2 -> (pbc = true -> 3 <= L1 /\ 3 <= L2) ->
  NoDup (map undirected (edge_colors L1 L2 pbc)).
Proof.
  intros H1 H2 HP. apply (Permutation_NoDup (Permutation_map undirected (Permutation_sym (edges_perm L1 L2 pbc H1 H2)))).
  unfold lattice_edges. rewrite map_flat_map.
  apply NoDup_flat_map; auto using seq_NoDup.
  - intros h Hh. apply in_seq in Hh. rewrite map_flat_map. apply NoDup_flat_map; auto using seq_NoDup.
    + intros w Hw. apply in_seq in Hw. rewrite map_flat_map. apply NoDup_flat_map; auto using directions_NoDup.
      * intros [[dh dw] c] _. unfold bond_from. destruct (_ || _); repeat constructor; auto.
      * intros d d' x Hd Hd' Hx Hx'. apply in_map_iff in Hx, Hx'.
        destruct Hx as (e & <- & He), Hx' as (e' & E & He').
        destruct (bond_unique L1 L2 pbc h w d e h w d' e') as (_ & _ & ?); auto; lia.
    + intros w w' x Hw Hw' Hx Hx'. apply in_seq in Hw, Hw'. apply in_map_iff in Hx, Hx'.
      destruct Hx as (e & <- & He), Hx' as (e' & E & He'). apply in_flat_map in He, He'.
      destruct He as (d & Hd & He), He' as (d' & Hd' & He').
      destruct (bond_unique L1 L2 pbc h w d e h w' d' e') as (_ & ? & _); auto; lia.
  - intros h h' x Hh Hh' Hx Hx'. apply in_seq in Hh, Hh'. apply in_map_iff in Hx, Hx'.
    destruct Hx as (e & <- & He), Hx' as (e' & E & He'). apply in_flat_map in He, He'.
    destruct He as (w & Hw & He), He' as (w' & Hw' & He'). apply in_seq in Hw, Hw'.
    apply in_flat_map in He, He'. destruct He as (d & Hd & He), He' as (d' & Hd' & He').
    destruct (bond_unique L1 L2 pbc h w d e h' w' d' e') as (? & _ & _); auto; lia.
Qed.
