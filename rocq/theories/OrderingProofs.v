(** Lemmas about orderings. *)
From Coq Require Import List ZArith Lia Arith Bool Permutation.
From Verif Require Import Base OrderingModel OrderingSpec.
Import ListNotations.

(** * raster and flattening *)

Lemma in_raster shape : forall l, In l (raster shape) <-> in_shape shape l.
Proof.
  induction shape as [|d t IH]; intros l; simpl.
  - split; [intros [<-|[]]; constructor | inversion 1; now left].
  - rewrite in_flat_map. split.
    + intros (i & Hi & Hl). apply in_map_iff in Hl. destruct Hl as (r & <- & Hr).
      apply in_range in Hi. constructor; auto. now apply IH.
    + inversion 1 as [|i r ? ? Hi Hr]; subst. exists i. split; [now apply in_range|].
      apply in_map. now apply IH.
Qed.

Lemma raster_length shape : length (raster shape) = volume shape.
Proof.
  induction shape as [|d t IH]; simpl; auto.
  unfold range. generalize 0. induction d; intros s; simpl; auto.
  rewrite app_length, map_length, IH, IHd. reflexivity.
Qed.

Lemma flat_loop_acc shape : forall l c, in_shape shape l ->
  flat_loop l shape c = c * volume shape + row_major shape l.
Proof.
  induction shape as [|d t IH]; intros l c H; inversion H; subst; simpl.
  - lia.
  - rewrite IH by auto. unfold volume; fold (volume t). simpl. lia.
Qed.

Lemma row_major_lt shape : forall l, in_shape shape l -> row_major shape l < volume shape.
Proof.
  induction shape as [|d t IH]; intros l H; inversion H; subst; simpl.
  - lia.
  - apply IH in H4. nia.
Qed.

Lemma raster_row_major shape : map (row_major shape) (raster shape) = range (volume shape).
Proof.
  induction shape as [|d t IH]; simpl; auto.
  fold (volume t).
  assert (G : forall s, map (row_major (d :: t)) (flat_map (fun i => map (cons i) (raster t)) (seq s d))
                        = seq (s * volume t) (d * volume t)).
  { induction d; intros s; simpl; auto.
    rewrite map_app, map_map. simpl.
    rewrite <- (map_map (row_major t) (fun x => s * volume t + x)), IH.
    unfold range. rewrite seq_app. f_equal.
    - rewrite seq_map_add. now rewrite Nat.add_0_r.
    - etransitivity; [apply (IHd (S s))|]. f_equal. simpl. lia. }
  apply (G 0).
Qed.

Lemma raster_flat shape : to_flat_ordering (raster shape) shape = range (volume shape).
Proof.
  unfold to_flat_ordering. rewrite <- raster_row_major. apply map_ext_in.
  intros l H. apply in_raster in H. now rewrite flat_loop_acc.
Qed.

Lemma raster_NoDup shape : NoDup (raster shape).
Proof.
  apply (NoDup_map_inv (row_major shape)). rewrite raster_row_major. apply range_NoDup.
Qed.

Lemma raster_ordering shape : ordering_of shape (raster shape).
Proof. split; [apply raster_NoDup | apply in_raster]. Qed.

(** * Inverse orderings *)

Lemma flat_perm shape o : ordering_of shape o -> Permutation (to_flat_ordering o shape) (range (volume shape)).
Proof.
  intros [ND HI]. rewrite <- raster_flat. unfold to_flat_ordering. apply Permutation_map.
  apply NoDup_Permutation; auto using raster_NoDup. intros l. rewrite HI. symmetry. apply in_raster.
Qed.

Lemma inverse_loop_spec flat : forall i inv,
  NoDup flat -> Forall (fun p => p < length inv) flat ->
  exists inv', inverse_loop flat i inv = Ok inv' /\ length inv' = length inv /\
    (forall k p, nth_error flat k = Some p -> nth_error inv' p = Some (i + k)) /\
    (forall p, ~ In p flat -> nth_error inv' p = nth_error inv p).
Proof.
  induction flat as [|p t IH]; intros i inv ND F; simpl.
  - exists inv. repeat split; auto. intros [|k] q; discriminate.
  - inversion ND as [|? ? NI ND']; subst. inversion F as [|? ? Hp F']; subst.
    rewrite (proj2 (Nat.ltb_lt _ _) Hp).
    destruct (IH (S i) (upd inv p i) ND') as (inv' & E & L & S1 & S2).
    { rewrite upd_length. exact F'. }
    exists inv'. rewrite upd_length in L. repeat split; auto.
    + intros [|k] q; simpl.
      * intros Q. injection Q as <-. rewrite S2 by auto. rewrite nth_error_upd_same by auto.
        f_equal; lia.
      * intros Q. rewrite (S1 _ _ Q). f_equal; lia.
    + intros q Hq. rewrite S2 by tauto. apply nth_error_upd_other. intros ->. apply Hq. now left.
Qed.

Lemma gather_ok {A} (x : list A) idx : Forall (fun i => i < length x) idx ->
  exists y, gather x idx = Ok y /\ length y = length idx /\
    (forall k i, nth_error idx k = Some i -> nth_error y k = nth_error x i).
Proof.
  induction idx as [|i t IH]; intros F; simpl.
  - exists []. repeat split; auto. intros [|k] i; discriminate.
  - inversion F as [|? ? Hi F']; subst. destruct (IH F') as (y & E & L & S).
    destruct (nth_error x i) as [v|] eqn:V.
    2:{ apply nth_error_None in V. lia. }
    rewrite E. simpl. exists (v :: y). repeat split; simpl; auto.
    intros [|k] j; simpl; auto. intros Q; injection Q as <-. now rewrite V.
Qed.

Lemma inverse_ordering_ok shape o : ordering_of shape o ->
  exists inv, to_flat_inverse_ordering (OList o) shape = Ok inv /\ length inv = volume shape /\
    (forall k p, nth_error (to_flat_ordering o shape) k = Some p -> nth_error inv p = Some k).
Proof.
  intros H. pose proof (flat_perm _ _ H) as P.
  assert (LO : length o = volume shape).
  { apply Permutation_length in P. unfold to_flat_ordering in P. now rewrite map_length, range_length in P. }
  unfold to_flat_inverse_ordering.
  destruct (inverse_loop_spec (to_flat_ordering o shape) 0 (repeat 0 (length o))) as (inv & E & L & S1 & S2).
  - eapply Permutation_NoDup; [symmetry; exact P | apply range_NoDup].
  - rewrite Forall_forall. intros p Hp. rewrite repeat_length, LO.
    apply in_range. eapply Permutation_in; eauto.
  - rewrite repeat_length in L. exists inv. repeat split; auto. lia.
Qed.

(** Gathering by the ordering and then by the inverse ordering is the identity. *)
Lemma gather_gather_inverse {A} shape o (x : list A) inv :
  ordering_of shape o -> length x = volume shape ->
  to_flat_inverse_ordering (OList o) shape = Ok inv ->
  exists y, gather x (to_flat_ordering o shape) = Ok y /\ length y = volume shape /\ gather y inv = Ok x.
Proof.
  intros H Lx HI. pose proof (flat_perm _ _ H) as P.
  destruct (inverse_ordering_ok _ _ H) as (inv' & E & L & S). rewrite E in HI. injection HI as <-.
  destruct (gather_ok x (to_flat_ordering o shape)) as (y & Ey & Ly & Sy).
  { apply Forall_forall. intros p Hp. rewrite Lx. apply in_range. eapply Permutation_in; eauto. }
  assert (Ly' : length y = volume shape).
  { rewrite Ly. apply Permutation_length in P. now rewrite range_length in P. }
  exists y. split; [auto|]. split; [auto|].
  assert (Hat : forall p, p < volume shape -> exists k, k < volume shape /\
            nth_error (to_flat_ordering o shape) k = Some p).
  { intros p Hp. assert (I : In p (to_flat_ordering o shape)).
    { eapply Permutation_in; [symmetry; exact P | now apply in_range]. }
    apply In_nth_error in I. destruct I as [k Hk]. exists k. split; auto.
    apply Permutation_length in P. rewrite range_length in P. rewrite <- P.
    apply nth_error_Some. now rewrite Hk. }
  destruct (gather_ok y inv') as (z & Ez & Lz & Sz).
  { apply Forall_forall. intros k Hk. apply In_nth_error in Hk. destruct Hk as [p Hp].
    assert (p < volume shape) by (rewrite <- L; apply nth_error_Some; now rewrite Hp).
    destruct (Hat p H0) as (k' & Hk' & Q). apply S in Q. rewrite Q in Hp. injection Hp as <-. lia. }
  rewrite Ez. f_equal. apply list_ext. intros p.
  destruct (Nat.lt_ge_cases p (volume shape)) as [Hp|Hp].
  - destruct (Hat p Hp) as (k & Hk & Q). pose proof (S _ _ Q) as Q'.
    rewrite (Sz _ _ Q'). now rewrite (Sy _ _ Q).
  - assert (nth_error x p = None) as -> by (apply nth_error_None; lia).
    apply nth_error_None. lia.
Qed.

Lemma gather_inverse_gather {A} shape o (x : list A) inv :
  ordering_of shape o -> length x = volume shape ->
  to_flat_inverse_ordering (OList o) shape = Ok inv ->
  exists y, gather x inv = Ok y /\ length y = volume shape /\ gather y (to_flat_ordering o shape) = Ok x.
Proof.
  intros H Lx HI. pose proof (flat_perm _ _ H) as P.
  destruct (inverse_ordering_ok _ _ H) as (inv' & E & L & S). rewrite E in HI. injection HI as <-.
  assert (Lf : length (to_flat_ordering o shape) = volume shape).
  { apply Permutation_length in P. now rewrite range_length in P. }
  assert (Hat : forall p, p < volume shape -> exists k, k < volume shape /\
            nth_error (to_flat_ordering o shape) k = Some p).
  { intros p Hp. assert (I : In p (to_flat_ordering o shape)).
    { eapply Permutation_in; [symmetry; exact P | now apply in_range]. }
    apply In_nth_error in I. destruct I as [k Hk]. exists k. split; auto.
    rewrite <- Lf. apply nth_error_Some. now rewrite Hk. }
  destruct (gather_ok x inv') as (y & Ey & Ly & Sy).
  { apply Forall_forall. intros k Hk. apply In_nth_error in Hk. destruct Hk as [p Hp].
    assert (p < volume shape) by (rewrite <- L; apply nth_error_Some; now rewrite Hp).
    destruct (Hat p H0) as (k' & Hk' & Q). apply S in Q. rewrite Q in Hp. injection Hp as <-. lia. }
  exists y. split; [auto|]. split; [lia|].
  destruct (gather_ok y (to_flat_ordering o shape)) as (z & Ez & Lz & Sz).
  { apply Forall_forall. intros p Hp. rewrite Ly, L. apply in_range. eapply Permutation_in; eauto. }
  rewrite Ez. f_equal. apply list_ext. intros k.
  destruct (Nat.lt_ge_cases k (volume shape)) as [Hk|Hk].
  - destruct (nth_error (to_flat_ordering o shape) k) as [p|] eqn:Q.
    2:{ apply nth_error_None in Q. lia. }
    rewrite (Sz _ _ Q). now rewrite (Sy _ _ (S _ _ Q)).
  - assert (nth_error x k = None) as -> by (apply nth_error_None; lia).
    apply nth_error_None. lia.
Qed.

(** * zigzag *)
Local Open Scope Z_scope.

(** Twice the number of cells on anti-diagonals before [s] in an n x n square. *)
Definition twice_before (n s : Z) : Z :=
  if s <? n then s * (s + 1) else 2 * n * n - (2 * n - 1 - s) * (2 * n - s).

(** Twice the position of a cell in zigzag order. *)
Definition rank2 (n : Z) (c : Z * Z) : Z :=
  let '(y, x) := c in
  let s := y + x in
  twice_before n s + 2 * (if Z.odd s then y - Z.max 0 (s - n + 1) else Z.min s (n - 1) - y).

(** The previous move is consistent with the position it led to. *)
Definition consistent (n : Z) (mv : move) (y x : Z) : Prop :=
  match mv with
  | DownLeft => Z.odd (y + x) = true
  | UpRight => Z.odd (y + x) = false
  | Right => (y = 0 /\ Z.odd (y + x) = true) \/ (y = n - 1 /\ Z.odd (y + x) = false)
  | Down => (x = 0 /\ Z.odd (y + x) = false) \/ (x = n - 1 /\ Z.odd (y + x) = true)
  end.

Lemma odd_succ s : Z.odd (s + 1) = negb (Z.odd s).
Proof. rewrite Z.add_1_r, Z.odd_succ, <- Z.negb_odd. reflexivity. Qed.

Lemma odd_pred s : Z.odd (s - 1) = negb (Z.odd s).
Proof. replace s with ((s - 1) + 1) at 2 by lia. rewrite odd_succ. now rewrite negb_involutive. Qed.

Lemma odd_2n n : Z.odd (2 * n - 2) = false.
Proof. replace (2 * n - 2) with (2 * (n - 1)) by lia. rewrite Z.odd_mul. reflexivity. Qed.

Lemma twice_before_succ n s : 0 <= s -> s + 1 <= 2 * n - 2 ->
  twice_before n (s + 1) = twice_before n s + 2 * (Z.min s (n - 1) - Z.max 0 (s - n + 1) + 1).
Proof.
  intros H1 H2. unfold twice_before.
  destruct (Z.ltb_spec (s + 1) n); destruct (Z.ltb_spec s n); try (exfalso; lia).
  all: first [rewrite Z.min_l by lia | rewrite Z.min_r by lia]; first [rewrite Z.max_l by lia | rewrite Z.max_r by lia]; nia.
Qed.

Lemma step_ok n mv y x :
  2 <= n -> in_square n (y, x) -> consistent n mv y x -> (y, x) <> (n - 1, n - 1) ->
  let mv' := next_move n n mv y x in
  let c' := apply_move mv' x y in
  in_square n c' /\ consistent n mv' (fst c') (snd c') /\ rank2 n c' = rank2 n (y, x) + 2 /\
  neighbours (y, x) c'.
Proof.
  intros Hn [Hy Hx] C NE. simpl in Hy, Hx.
  assert (NE' : y < n - 1 \/ x < n - 1).
  { destruct (Z.eq_dec y (n - 1)); destruct (Z.eq_dec x (n - 1)); try lia. subst. now contradiction NE. }
  (* normal form of the next move in terms of the parity of the diagonal *)
  assert (NM : next_move n n mv y x =
    if Z.odd (y + x) then (if y + 1 <? n then (if 0 <? x then DownLeft else Down) else Right)
    else (if x + 1 <? n then (if 0 <? y then UpRight else Right) else Down)).
  { unfold next_move. destruct mv; simpl in C; cbn [move_eqb].
    - destruct C as [[-> O]|[-> O]]; rewrite O.
      + destruct (Z.ltb_spec (0 + 1) n); [|lia]. cbn [move_eqb].
        destruct (Z.ltb_spec 0 x); reflexivity.
      + destruct (Z.ltb_spec (n - 1 + 1) n); [lia|]. cbn [move_eqb].
        destruct (Z.ltb_spec (x + 1) n); [|reflexivity].
        destruct (Z.ltb_spec 0 (n - 1)); reflexivity.
    - destruct C as [[-> O]|[-> O]]; rewrite O.
      + destruct (Z.ltb_spec (0 + 1) n); [|lia]. cbn [move_eqb].
        destruct (Z.ltb_spec 0 y); reflexivity.
      + destruct (Z.ltb_spec (n - 1 + 1) n); [lia|]. cbn [move_eqb].
        destruct (Z.ltb_spec 0 (n - 1)); [|lia].
        destruct (Z.ltb_spec (y + 1) n); reflexivity.
    - rewrite C. destruct (Z.ltb_spec (y + 1) n); cbn [andb negb]; destruct (Z.ltb_spec 0 x); reflexivity.
    - rewrite C. destruct (Z.ltb_spec (x + 1) n); cbn [andb negb]; destruct (Z.ltb_spec 0 y); reflexivity. }
  cbv zeta. rewrite NM. clear NM C.
  destruct (Z.odd (y + x)) eqn:O.
  - (* odd diagonal *)
    destruct (Z.ltb_spec (y + 1) n).
    + destruct (Z.ltb_spec 0 x).
      * (* down left *)
        cbn [apply_move fst snd consistent]. unfold in_square, neighbours, rank2. cbn [fst snd].
        replace (y + 1 + (x - 1)) with (y + x) by lia. rewrite O.
        repeat split; try lia. intros E; injection E; lia.
      * (* down along the left edge *)
        assert (x = 0) by lia. subst x.
        cbn [apply_move fst snd consistent]. unfold in_square, neighbours, rank2. cbn [fst snd].
        replace (y + 1 + 0) with (y + 0 + 1) by lia. rewrite odd_succ, O. cbn [negb].
        rewrite twice_before_succ by lia.
        repeat split; try lia. intros E; injection E; lia.
    + (* right along the bottom *)
      assert (y = n - 1) by lia. subst y.
      assert (x < n - 1) by lia.
      cbn [apply_move fst snd consistent]. unfold in_square, neighbours, rank2. cbn [fst snd].
      replace (n - 1 + (x + 1)) with (n - 1 + x + 1) by lia. rewrite odd_succ, O. cbn [negb].
      rewrite twice_before_succ by lia.
      repeat split; try lia. intros E; injection E; lia.
  - (* even diagonal *)
    destruct (Z.ltb_spec (x + 1) n).
    + destruct (Z.ltb_spec 0 y).
      * cbn [apply_move fst snd consistent]. unfold in_square, neighbours, rank2. cbn [fst snd].
        replace (y - 1 + (x + 1)) with (y + x) by lia. rewrite O.
        repeat split; try lia. intros E; injection E; lia.
      * assert (y = 0) by lia. subst y.
        cbn [apply_move fst snd consistent]. unfold in_square, neighbours, rank2. cbn [fst snd].
        replace (0 + (x + 1)) with (0 + x + 1) by lia. rewrite odd_succ, O. cbn [negb].
        rewrite twice_before_succ by lia.
        repeat split; try lia. intros E; injection E; lia.
    + assert (x = n - 1) by lia. subst x. assert (y < n - 1) by lia.
      cbn [apply_move fst snd consistent]. unfold in_square, neighbours, rank2. cbn [fst snd].
      replace (y + 1 + (n - 1)) with (y + (n - 1) + 1) by lia. rewrite odd_succ, O. cbn [negb].
      rewrite twice_before_succ by lia.
      repeat split; try lia. intros E; injection E; lia.
Qed.

Lemma rank2_corner n : 1 <= n -> rank2 n (n - 1, n - 1) = 2 * (n * n - 1).
Proof.
  intros H. unfold rank2. replace (n - 1 + (n - 1)) with (2 * n - 2) by lia. rewrite odd_2n.
  unfold twice_before. destruct (Z.ltb_spec (2 * n - 2) n); nia.
Qed.

Lemma zigzag_loop_ok k : forall n mv y x,
  2 <= n -> in_square n (y, x) -> consistent n mv y x ->
  rank2 n (y, x) + 2 * Z.of_nat k <= 2 * (n * n - 1) ->
  let l := zigzag_loop k n n mv y x in
  length l = k /\ Forall (in_square n) l /\ consecutive neighbours ((y, x) :: l) /\
  (forall j c, nth_error l j = Some c -> rank2 n c = rank2 n (y, x) + 2 * (Z.of_nat j + 1)).
Proof.
  induction k; intros n mv y x Hn HS HC HR; cbn [zigzag_loop].
  - repeat split; auto. intros [|j]; discriminate.
  - assert (NE : (y, x) <> (n - 1, n - 1)).
    { intros E. rewrite E, rank2_corner in HR by lia. lia. }
    pose proof (step_ok n mv y x Hn HS HC NE) as (S1 & S2 & S3 & S4). cbv zeta in *.
    destruct (apply_move (next_move n n mv y x) x y) as [y' x'] eqn:AM. cbn [fst snd] in *.
    destruct (IHk n (next_move n n mv y x) y' x' Hn S1 S2) as (L & F & N & R).
    { rewrite S3. lia. }
    cbn [length]. split; [auto|]. split; [auto|]. split; [split; auto|].
    intros [|j] c; cbn [nth_error].
    + intros E; injection E as <-. rewrite S3. lia.
    + intros E. rewrite (R _ _ E), S3. lia.
Qed.

Lemma rank2_start n : 2 <= n -> rank2 n (0, 0) = 0 /\ rank2 n (0, 1) = 2.
Proof.
  intros H. unfold rank2, twice_before. change (0 + 0) with 0. change (0 + 1) with 1.
  change (Z.odd 0) with false. change (Z.odd 1) with true.
  destruct (Z.ltb_spec 0 n); [|lia]. destruct (Z.ltb_spec 1 n); [|lia]. cbv iota. lia.
Qed.

Lemma zigzag_list n : (2 <= n)%nat ->
  exists l, zigzag [n; n] = Ok l /\ length l = (n * n)%nat /\ Forall (in_square (Z.of_nat n)) l /\
    consecutive neighbours l /\
    (forall j c, nth_error l j = Some c -> rank2 (Z.of_nat n) c = 2 * Z.of_nat j) /\
    hd_error l = Some (0, 0).
Proof.
  intros H. unfold zigzag. rewrite Nat.eqb_refl.
  set (N := Z.of_nat n). assert (HN : 2 <= N) by lia.
  assert (Hnn : (2 <= n * n)%nat) by nia.
  destruct (rank2_start N HN) as [R0 R1].
  destruct (zigzag_loop_ok (n * n - 2) N Right 0 1 HN) as (L & F & C & R).
  - split; simpl; lia.
  - left. split; reflexivity.
  - rewrite R1. unfold N. lia.
  - cbv zeta in *. eexists. split; [reflexivity|].
    simpl app. repeat split.
    + cbn [length]. rewrite L. lia.
    + constructor; [split; simpl; lia|]. constructor; [split; simpl; lia|]. exact F.
    + intros E; discriminate.
    + simpl; lia.
    + simpl; lia.
    + exact C.
    + intros [|[|j]] c; cbn [nth_error].
      * intros E; injection E as <-. rewrite R0. lia.
      * intros E; injection E as <-. rewrite R1. lia.
      * intros E. rewrite (R _ _ E), R1. lia.
Qed.

Definition square_cells (n : nat) : list (Z * Z) :=
  flat_map (fun y => map (fun x => (Z.of_nat y, Z.of_nat x)) (range n)) (range n).

Lemma in_square_cells n c : In c (square_cells n) <-> in_square (Z.of_nat n) c.
Proof.
  unfold square_cells. rewrite in_flat_map. split.
  - intros (y & Hy & Hc). apply in_map_iff in Hc. destruct Hc as (x & <- & Hx).
    apply in_range in Hy, Hx. split; simpl; lia.
  - destruct c as [y x]. intros [Hy Hx]. simpl in Hy, Hx. exists (Z.to_nat y). split.
    + apply in_range. lia.
    + apply in_map_iff. exists (Z.to_nat x). split; [f_equal; lia | apply in_range; lia].
Qed.

Lemma square_cells_length n : length (square_cells n) = (n * n)%nat.
Proof.
  unfold square_cells.
  assert (G : forall m l, length l = m -> length (flat_map (fun y : nat => map (fun x => (Z.of_nat y, Z.of_nat x)) (range n)) l) = (m * n)%nat).
  { induction m; intros [|a l] E; simpl in *; try lia. rewrite app_length, map_length, range_length, IHm by lia. reflexivity. }
  apply G. apply range_length.
Qed.

Lemma zigzag_visits n : (2 <= n)%nat ->
  exists l, zigzag [n; n] = Ok l /\ NoDup l /\ (forall c, In c l <-> in_square (Z.of_nat n) c) /\
    consecutive neighbours l /\ hd_error l = Some (0, 0) /\
    last l (0, 0) = (Z.of_nat n - 1, Z.of_nat n - 1).
Proof.
  intros H. destruct (zigzag_list n H) as (l & E & L & F & C & R & HD). exists l.
  assert (ND : NoDup l).
  { apply NoDup_nth_error. intros i j Hi Eij.
    destruct (nth_error l i) as [c|] eqn:Ei.
    2:{ apply nth_error_None in Ei. lia. }
    pose proof (R _ _ Ei). pose proof (R _ _ (eq_sym Eij)). lia. }
  assert (INC : incl l (square_cells n)).
  { intros c Hc. apply in_square_cells. rewrite Forall_forall in F. auto. }
  assert (ALL : forall c, In c l <-> in_square (Z.of_nat n) c).
  { intros c. rewrite <- in_square_cells. split; [apply INC|].
    apply (NoDup_length_incl ND); auto. rewrite square_cells_length. lia. }
  repeat split; auto; try (now apply ALL).
  assert (K : In (Z.of_nat n - 1, Z.of_nat n - 1) l) by (apply ALL; split; simpl; lia).
  apply In_nth_error in K. destruct K as [k Hk]. pose proof (R _ _ Hk) as RK.
  rewrite rank2_corner in RK by lia.
  assert (k = n * n - 1)%nat by nia. subst k.
  rewrite <- L in Hk. clear - Hk L H.
  assert (length l <> 0)%nat by nia. clear L H.
  destruct l as [|a l] using rev_ind; [simpl in H0; lia|].
  rewrite last_last. rewrite app_length in Hk. simpl in Hk.
  replace (length l + 1 - 1)%nat with (length l) in Hk by lia.
  rewrite nth_error_app2 in Hk by lia. rewrite Nat.sub_diag in Hk. simpl in Hk. congruence.
Qed.

Lemma zigzag_rejects shape : (forall n, shape <> [n; n]) -> zigzag shape = Err ValueError.
Proof.
  intros H. unfold zigzag. destruct shape as [|a [|b [|c t]]]; auto.
  destruct (Nat.eqb_spec a b) as [->|]; auto. now destruct (H b).
Qed.

Lemma zigzag_one : exists l, zigzag [1%nat; 1%nat] = Ok l /\ exists c, In c l /\ ~ in_square 1 c.
Proof.
  eexists. split; [reflexivity|]. exists (0, 1). split; [simpl; auto|]. intros [_ H]. simpl in H. lia.
Qed.

Lemma flat_index shape l : in_shape shape l -> to_flat_ordering [l] shape = [row_major shape l].
Proof. intros H. simpl. now rewrite flat_loop_acc. Qed.

Lemma gather_then_inverse {A} shape o (x : list A) :
  ordering_of shape o -> length x = volume shape ->
  exists inv y, to_flat_inverse_ordering (OList o) shape = Ok inv /\
    gather x (to_flat_ordering o shape) = Ok y /\ length y = volume shape /\ gather y inv = Ok x.
Proof.
  intros H L. destruct (inverse_ordering_ok _ _ H) as (inv & E & _).
  destruct (gather_gather_inverse shape o x inv H L E) as (y & H1 & H2 & H3).
  exists inv, y. auto.
Qed.

Lemma inverse_then_gather {A} shape o (x : list A) :
  ordering_of shape o -> length x = volume shape ->
  exists inv y, to_flat_inverse_ordering (OList o) shape = Ok inv /\
    gather x inv = Ok y /\ length y = volume shape /\ gather y (to_flat_ordering o shape) = Ok x.
Proof.
  intros H L. destruct (inverse_ordering_ok _ _ H) as (inv & E & _).
  destruct (gather_inverse_gather shape o x inv H L E) as (y & H1 & H2 & H3).
  exists inv, y. auto.
Qed.

Lemma gather_meaning {A} shape o (x y : list A) k l :
  ordering_of shape o -> length x = volume shape -> gather x (to_flat_ordering o shape) = Ok y ->
  nth_error o k = Some l -> nth_error y k = nth_error x (row_major shape l).
Proof.
  intros H L E Hk. pose proof (flat_perm _ _ H) as P.
  destruct (gather_ok x (to_flat_ordering o shape)) as (y' & Ey & _ & Sy).
  { apply Forall_forall. intros p Hp. rewrite L. apply in_range. eapply Permutation_in; eauto. }
  rewrite E in Ey. injection Ey as <-. apply Sy.
  unfold to_flat_ordering. rewrite nth_error_map, Hk. simpl. f_equal.
  rewrite flat_loop_acc; [lia|]. apply H. now apply nth_error_In in Hk.
Qed.
