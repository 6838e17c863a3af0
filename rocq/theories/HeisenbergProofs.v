(** Lemmas for the Heisenberg operator. *)
From Coq Require Import List ZArith Lia Bool Arith Permutation QArith.
From Verif Require Import Base LatticeSpec HeisenbergModel.
Import ListNotations.
Local Open Scope Z_scope.

(** * Integer sums *)
Section ZS.
  Context {A : Type}.
  Implicit Types (f g : A -> Z) (l : list A).
  Lemma Zsum_cons f a l : Zsum f (a :: l) = f a + Zsum f l. Proof. reflexivity. Qed.
  Lemma Zsum_nil f : Zsum f [] = 0. Proof. reflexivity. Qed.
  Lemma Zsum_app f l1 l2 : Zsum f (l1 ++ l2) = Zsum f l1 + Zsum f l2.
  Proof. induction l1; simpl app; [rewrite Zsum_nil; lia|]. rewrite !Zsum_cons, IHl1. lia. Qed.
  Lemma Zsum_ext f g l : (forall a, In a l -> f a = g a) -> Zsum f l = Zsum g l.
  Proof.
    induction l; intros H; auto. rewrite !Zsum_cons, H by now left. f_equal.
    apply IHl. intros; apply H; now right.
  Qed.
  Lemma Zsum_plus f g l : Zsum (fun a => f a + g a) l = Zsum f l + Zsum g l.
  Proof. induction l; [reflexivity|]. rewrite !Zsum_cons, IHl. lia. Qed.
  Lemma Zsum_zero l : Zsum (fun _ => 0) l = 0.
  Proof. induction l; auto. Qed.
  Lemma Zsum_perm f l1 l2 : Permutation l1 l2 -> Zsum f l1 = Zsum f l2.
  Proof.
    induction 1; auto; rewrite ?Zsum_cons.
    - now rewrite IHPermutation.
    - lia.
    - congruence.
  Qed.
End ZS.
Lemma Zsum_map {A B} (g : A -> B) (f : B -> Z) l : Zsum f (map g l) = Zsum (fun a => f (g a)) l.
Proof. induction l; auto. simpl map. rewrite !Zsum_cons, IHl. reflexivity. Qed.
Lemma Zsum_flat_map {A B} (g : A -> list B) (f : B -> Z) l :
  Zsum f (flat_map g l) = Zsum (fun a => Zsum f (g a)) l.
Proof. induction l; auto. simpl flat_map. rewrite Zsum_app, Zsum_cons, IHl. reflexivity. Qed.
Lemma Zsum_exchange {A B} (f : A -> B -> Z) l1 l2 :
  Zsum (fun a => Zsum (fun b => f a b) l2) l1 = Zsum (fun b => Zsum (fun a => f a b) l1) l2.
Proof.
  induction l1.
  - simpl. symmetry. apply Zsum_zero.
  - rewrite Zsum_cons, IHl1, <- Zsum_plus. reflexivity.
Qed.

Lemma NoDup_app {A} (l1 l2 : list A) : NoDup l1 -> NoDup l2 -> (forall a, In a l1 -> In a l2 -> False) ->
  NoDup (l1 ++ l2).
Proof.
  induction l1 as [|a l1 IH]; intros N1 N2 D; cbn [app]; auto. inversion N1; subst. constructor.
  - rewrite in_app_iff. intros [H|H]; [auto|]. apply (D a); [now left|auto].
  - apply IH; auto. intros x Hx. apply D. now right.
Qed.

(** Summing over a duplicate free sublist outside of which the terms vanish. *)
Lemma Zsum_sub (f : nat -> Z) keys l : NoDup keys -> NoDup l -> incl keys l ->
  (forall k, In k l -> ~ In k keys -> f k = 0) -> Zsum f l = Zsum f keys.
Proof.
  intros N1 N2 I Z.
  set (rest := filter (fun k => negb (existsb (Nat.eqb k) keys)) l).
  assert (Hrest : forall k, In k rest <-> In k l /\ ~ In k keys).
  { intros k. unfold rest. rewrite filter_In, negb_true_iff.
    assert (E : existsb (Nat.eqb k) keys = false <-> ~ In k keys).
    { rewrite <- not_true_iff_false, existsb_exists. split; intros H1 H2; apply H1.
      - exists k. split; auto. apply Nat.eqb_refl.
      - destruct H2 as (x & Hx & E). apply Nat.eqb_eq in E. now subst. }
    rewrite E. tauto. }
  rewrite (Zsum_perm f l (keys ++ rest)).
  - rewrite Zsum_app, (Zsum_ext f (fun _ => 0) rest), Zsum_zero; [lia|].
    intros k Hk. apply Hrest in Hk. apply Z; tauto.
  - apply NoDup_Permutation; auto.
    + apply NoDup_app; auto.
      * unfold rest. now apply NoDup_filter.
      * intros a Ha Hr. apply Hrest in Hr. tauto.
    + intros k. rewrite in_app_iff, Hrest. destruct (in_dec Nat.eq_dec k keys); split; intuition auto.
Qed.

Lemma NoDup_flat_map {A B} (f : A -> list B) l : NoDup l -> (forall a, In a l -> NoDup (f a)) ->
  (forall a a' b, In a l -> In a' l -> In b (f a) -> In b (f a') -> a = a') -> NoDup (flat_map f l).
Proof.
  induction l as [|a l IH]; intros N H1 H2; cbn [flat_map]; [constructor|].
  inversion N; subst. apply NoDup_app.
  - apply H1. now left.
  - apply IH; auto.
    + intros x Hx. apply H1. now right.
    + intros x x' y Hx Hx' Hy Hy'. apply (H2 x x' y); auto; now right.
  - intros b Hb Hb'. apply in_flat_map in Hb'. destruct Hb' as (a' & Ha' & Hb').
    apply H3. rewrite (H2 a a' b); auto; [now left|now right].
Qed.

(** * The writes of one call *)
(** A write: slot, site, neighbour (none across an open boundary). *)
Definition write := (nat * (nat * nat) * option (nat * nat))%type.
Definition key (w : write) : nat := fst (fst w).

Definition vertical (pbc : bool) (n0 i j : nat) : option (nat * nat) :=
  if (i + 1 <? n0)%nat then Some ((i + 1)%nat, j) else if pbc then Some (0%nat, j) else None.
Definition horizontal (pbc : bool) (n1 i j : nat) : option (nat * nat) :=
  if (j + 1 <? n1)%nat then Some (i, (j + 1)%nat) else if pbc then Some (i, 0%nat) else None.

Definition site_writes (pbc : bool) (dim n0 n1 i j : nat) : list write :=
  (if (1 <? n0)%nat then [(((i * n1 + j) * dim)%nat, (i, j), vertical pbc n0 i j)] else []) ++
  (if (1 <? n1)%nat then [(((i * n1 + j) * dim + (if (1 <? n0) then 1 else 0))%nat, (i, j), horizontal pbc n1 i j)] else []).

Definition all_writes pbc dim n0 n1 : list write :=
  flat_map (fun i => flat_map (fun j => site_writes pbc dim n0 n1 i j) (range n1)) (range n0).

Definition apply_write off n1 s (st : buffers * Z) (w : write) : buffers * Z :=
  match w with
  | (k, (i, j), Some (i', j')) => (write_bond off n1 s (fst st) k i j i' j', snd st + at2 n1 s i j * at2 n1 s i' j')
  | (k, _, None) => (write_open off (fst st) k, snd st)
  end.

Lemma site_body_writes off pbc dim n0 n1 s i j st :
  site_body off pbc dim n0 n1 s i j st = fold_left (apply_write off n1 s) (site_writes pbc dim n0 n1 i j) st.
Proof.
  unfold site_body, site_writes, vertical, horizontal.
  rewrite fold_left_app.
  destruct (1 <? n0)%nat, (1 <? n1)%nat; cbn [fold_left apply_write];
    try rewrite Nat.add_0_r;
    destruct (i + 1 <? n0)%nat; destruct (j + 1 <? n1)%nat; destruct pbc; cbn [fold_left apply_write fst snd];
    reflexivity.
Qed.

Lemma fold_left_flat_map {A B C} (f : C -> B -> C) (g : A -> list B) l : forall c,
  fold_left f (flat_map g l) c = fold_left (fun c a => fold_left f (g a) c) l c.
Proof. induction l as [|a l IH]; intros c; cbn [flat_map fold_left]; auto. rewrite fold_left_app. apply IH. Qed.

Lemma fold_left_ext_all {A B} (f g : B -> A -> B) l : (forall b a, f b a = g b a) ->
  forall b, fold_left f l b = fold_left g l b.
Proof. intros H. induction l; intros b; cbn [fold_left]; auto. now rewrite H. Qed.

Lemma fold_left_map {A B C} (f : C -> B -> C) (g : A -> B) l : forall c,
  fold_left f (map g l) c = fold_left (fun c a => f c (g a)) l c.
Proof. induction l; intros c; cbn [map fold_left]; auto. Qed.

Lemma calc_writes off pbc dim n0 n1 s b :
  calc_conn_and_mel off pbc dim n0 n1 s b =
  fold_left (apply_write off n1 s) (all_writes pbc dim n0 n1) (b, 0).
Proof.
  unfold calc_conn_and_mel, all_writes. rewrite !fold_left_flat_map.
  apply fold_left_ext_all. intros c i. rewrite fold_left_map, fold_left_flat_map. cbn [fst snd].
  apply fold_left_ext_all. intros c' j. apply site_body_writes.
Qed.

(** Contents of one slot after a write. *)
Definition new_use (n1 : nat) (s : list Z) (w : write) : bool :=
  match w with
  | (_, (i, j), Some (i', j')) => negb (at2 n1 s i j =? at2 n1 s i' j')
  | _ => false
  end.
Definition new_conn (n1 : nat) (s : list Z) (w : write) (c : list Z) : list Z :=
  match w with
  | (_, (i, j), Some (i', j')) => set2 n1 (set2 n1 c i j (at2 n1 s i' j')) i' j' (at2 n1 s i j)
  | _ => c
  end.
Definition new_mel (off : Z) (n1 : nat) (s : list Z) (w : write) : Z := if new_use n1 s w then off else 0.
Definition product (n1 : nat) (s : list Z) (w : write) : Z :=
  match w with
  | (_, (i, j), Some (i', j')) => at2 n1 s i j * at2 n1 s i' j'
  | _ => 0
  end.

Definition buf_len (n : nat) (b : buffers) : Prop :=
  length (all_conn b) = n /\ length (all_mel b) = n /\ length (all_use b) = n.

Lemma apply_write_len off n1 s n st w : buf_len n (fst st) -> buf_len n (fst (apply_write off n1 s st w)).
Proof.
  intros (H1 & H2 & H3). destruct w as [[k [i j]] [[i' j']|]]; cbn [apply_write fst];
    unfold buf_len, write_bond, write_open; cbn [all_conn all_mel all_use]; rewrite ?upd_length; auto.
Qed.

Lemma fold_writes_len off n1 s n W : forall st, buf_len n (fst st) ->
  buf_len n (fst (fold_left (apply_write off n1 s) W st)).
Proof.
  induction W as [|w W IH]; intros st H; cbn [fold_left]; auto. apply IH. now apply apply_write_len.
Qed.

Lemma apply_write_same off n1 s n st w : buf_len n (fst st) -> (S (key w) < n)%nat ->
  let b := fst (apply_write off n1 s st w) in
  nth (S (key w)) (all_conn b) [] = new_conn n1 s w (nth (S (key w)) (all_conn (fst st)) []) /\
  nth (S (key w)) (all_mel b) 0 = new_mel off n1 s w /\
  nth (S (key w)) (all_use b) false = new_use n1 s w.
Proof.
  intros (H1 & H2 & H3) Hk. destruct w as [[k [i j]] [[i' j']|]]; cbn [apply_write fst key] in *;
    unfold write_bond, write_open; cbn [all_conn all_mel all_use]; rewrite ?nth_upd_same by lia;
    repeat split; reflexivity.
Qed.

Lemma apply_write_other off n1 s st w k : k <> S (key w) ->
  let b := fst (apply_write off n1 s st w) in
  nth k (all_conn b) [] = nth k (all_conn (fst st)) [] /\
  nth k (all_mel b) 0 = nth k (all_mel (fst st)) 0 /\
  nth k (all_use b) false = nth k (all_use (fst st)) false.
Proof.
  intros Hk. destruct w as [[k' [i j]] [[i' j']|]]; cbn [apply_write fst key] in *;
    unfold write_bond, write_open; cbn [all_conn all_mel all_use]; rewrite ?nth_upd_other by lia;
    repeat split; reflexivity.
Qed.

Lemma fold_writes_other off n1 s W : forall st k, (forall w, In w W -> k <> S (key w)) ->
  let b := fst (fold_left (apply_write off n1 s) W st) in
  nth k (all_conn b) [] = nth k (all_conn (fst st)) [] /\
  nth k (all_mel b) 0 = nth k (all_mel (fst st)) 0 /\
  nth k (all_use b) false = nth k (all_use (fst st)) false.
Proof.
  induction W as [|w W IH]; intros st k H; cbn [fold_left]; auto.
  destruct (IH (apply_write off n1 s st w) k) as (E1 & E2 & E3). { intros; apply H; now right. }
  cbv zeta. rewrite E1, E2, E3. apply apply_write_other. apply H. now left.
Qed.

Lemma fold_writes_in off n1 s n W : forall st w, NoDup (map key W) -> buf_len n (fst st) ->
  (forall w, In w W -> (S (key w) < n)%nat) -> In w W ->
  let b := fst (fold_left (apply_write off n1 s) W st) in
  nth (S (key w)) (all_conn b) [] = new_conn n1 s w (nth (S (key w)) (all_conn (fst st)) []) /\
  nth (S (key w)) (all_mel b) 0 = new_mel off n1 s w /\
  nth (S (key w)) (all_use b) false = new_use n1 s w.
Proof.
  induction W as [|v W IH]; intros st w N L B Hw; [destruct Hw|]. cbn [fold_left].
  cbn [map] in N. inversion N as [|? ? N1 N2]; subst.
  destruct (in_dec Nat.eq_dec (key w) (map key W)) as [I|I].
  - destruct Hw as [->|Hw]; [tauto|].
    destruct (IH (apply_write off n1 s st v) w) as (E1 & E2 & E3); auto.
    { now apply apply_write_len. } { intros; apply B; now right. }
    cbv zeta. rewrite E1, E2, E3.
    assert (key w <> key v) by (intros E; apply N1; now rewrite <- E).
    destruct (apply_write_other off n1 s st v (S (key w))) as (-> & _ & _); auto.
  - destruct Hw as [->|Hw]; [|exfalso; apply I; now apply in_map].
    destruct (fold_writes_other off n1 s W (apply_write off n1 s st w) (S (key w))) as (E1 & E2 & E3).
    { intros v Hv E. injection E as E. apply I. rewrite E. now apply in_map. }
    cbv zeta. rewrite E1, E2, E3. apply (apply_write_same off n1 s n); auto. apply B. now left.
Qed.

Lemma fold_writes_sum off n1 s W : forall st,
  snd (fold_left (apply_write off n1 s) W st) = snd st + Zsum (product n1 s) W.
Proof.
  induction W as [|w W IH]; intros st; cbn [fold_left]; [rewrite Zsum_nil; lia|].
  rewrite IH, Zsum_cons. destruct w as [[k [i j]] [[i' j']|]]; cbn [apply_write snd product]; lia.
Qed.

(** * Keys are distinct slots *)
Definition good_dims (dim n0 n1 : nat) : Prop :=
  (0 < n0 /\ 0 < n1)%nat /\ (dim = 2 \/ (dim = 1 /\ n1 = 1))%nat.

Lemma site_writes_keys pbc dim n0 n1 i j w : good_dims dim n0 n1 -> In w (site_writes pbc dim n0 n1 i j) ->
  exists d, (d < dim)%nat /\ key w = ((i * n1 + j) * dim + d)%nat.
Proof.
  intros [_ Hd] H. unfold site_writes in H. apply in_app_or in H.
  destruct (Nat.ltb_spec 1 n0), (Nat.ltb_spec 1 n1); destruct H as [H|H]; cbn [In] in H;
    repeat (destruct H as [<-|H]); try tauto; cbn [key fst];
    solve [ exists 0%nat; split; [destruct Hd; lia | lia] | exists 1%nat; split; [destruct Hd; lia | lia] ].
Qed.

Lemma all_writes_keys pbc dim n0 n1 w : good_dims dim n0 n1 -> In w (all_writes pbc dim n0 n1) ->
  (key w < n0 * n1 * dim)%nat.
Proof.
  intros G H. unfold all_writes in H. apply in_flat_map in H. destruct H as (i & Hi & H).
  apply in_flat_map in H. destruct H as (j & Hj & H). apply in_range in Hi. apply in_range in Hj.
  destruct (site_writes_keys _ _ _ _ _ _ _ G H) as (d & Hd & ->).
  assert (i * n1 + j < n0 * n1)%nat by nia. nia.
Qed.

Lemma digits_unique dim p p' d d' : (d < dim)%nat -> (d' < dim)%nat -> (p * dim + d = p' * dim + d')%nat ->
  p = p' /\ d = d'.
Proof. intros H1 H2 E. assert (p = p') by nia. split; [auto|]. subst. lia. Qed.

Lemma all_writes_NoDup pbc dim n0 n1 : good_dims dim n0 n1 -> NoDup (map key (all_writes pbc dim n0 n1)).
Proof.
  intros G. unfold all_writes.
  assert (E : forall {A} (f : A -> list write) l, map key (flat_map f l) = flat_map (fun a => map key (f a)) l).
  { intros A f l. induction l; cbn [flat_map]; auto. now rewrite map_app, IHl. }
  rewrite E. apply NoDup_flat_map; auto using range_NoDup.
  - intros i _. rewrite E. apply NoDup_flat_map; auto using range_NoDup.
    + intros j _. unfold site_writes. rewrite map_app.
      destruct (1 <? n0)%nat, (1 <? n1)%nat; cbn [map app key fst]; repeat constructor; cbn [In]; try tauto.
      intros [H|[]]. lia.
    + intros j j' k Hj Hj' H H'. apply in_map_iff in H, H'.
      destruct H as (w & <- & Hw), H' as (w' & E' & Hw').
      destruct (site_writes_keys _ _ _ _ _ _ _ G Hw) as (d & Hd & K).
      destruct (site_writes_keys _ _ _ _ _ _ _ G Hw') as (d' & Hd' & K').
      rewrite K, K' in E'. apply digits_unique in E'; auto. lia.
  - intros i i' k Hi Hi' H H'. rewrite E in H, H'. apply in_flat_map in H, H'.
    destruct H as (j & Hj & H), H' as (j' & Hj' & H'). apply in_range in Hj, Hj'.
    apply in_map_iff in H, H'.
    destruct H as (w & <- & Hw), H' as (w' & E' & Hw').
    destruct (site_writes_keys _ _ _ _ _ _ _ G Hw) as (d & Hd & K).
    destruct (site_writes_keys _ _ _ _ _ _ _ G Hw') as (d' & Hd' & K').
    rewrite K, K' in E'. apply digits_unique in E'; auto. destruct E' as [E' _].
    apply digits_unique in E'; lia.
Qed.

(** * One call on a buffer *)
Definition good_buffers pbc dim n0 n1 (b : buffers) : Prop :=
  let n := (n0 * n1 * dim + 1)%nat in
  buf_len n b /\ nth 0 (all_use b) false = true /\
  forall k, (k < n)%nat -> k <> 0%nat -> ~ In (k - 1)%nat (map key (all_writes pbc dim n0 n1)) ->
    nth k (all_mel b) 0 = 0 /\ nth k (all_use b) false = false.

Lemma new_buffers_good pbc dim n0 n1 size : good_buffers pbc dim n0 n1 (new_buffers (n0 * n1 * dim + 1) size).
Proof.
  unfold good_buffers, buf_len, new_buffers. cbn [all_conn all_mel all_use].
  rewrite upd_length, !repeat_length.
  split; [auto|]. split.
  - rewrite Nat.add_1_r. reflexivity.
  - intros k Hk H0 _. split.
    + apply nth_repeat.
    + rewrite nth_upd_other by lia. apply nth_repeat.
Qed.

Section Column.
  Variables (off : Z) (pbc : bool) (dim n0 n1 : nat) (s : list Z) (b : buffers).
  Hypothesis G : good_dims dim n0 n1.
  Hypothesis GB : good_buffers pbc dim n0 n1 b.
  Let n := (n0 * n1 * dim + 1)%nat.
  Let r := column_find_conn off pbc dim n0 n1 s b.
  Let W := all_writes pbc dim n0 n1.

  Lemma filled_len : buf_len n {| all_conn := repeat s (length (all_conn b)); all_mel := all_mel b; all_use := all_use b |}.
  Proof. destruct GB as ((H1 & H2 & H3) & _). unfold buf_len; cbn [all_conn all_mel all_use]. rewrite repeat_length. auto. Qed.

  Lemma column_eq : r =
    let st := fold_left (apply_write off n1 s) W
      ({| all_conn := repeat s n; all_mel := all_mel b; all_use := all_use b |}, 0) in
    {| all_conn := all_conn (fst st); all_mel := upd (all_mel (fst st)) 0 (snd st); all_use := all_use (fst st) |}.
  Proof.
    unfold r, column_find_conn. rewrite calc_writes. fold W.
    destruct GB as ((H1 & H2 & H3) & _). rewrite H1. fold n.
    destruct (fold_left _ _ _) as [b' z]. reflexivity.
  Qed.

  Lemma column_len : buf_len n r.
  Proof.
    rewrite column_eq. cbv zeta.
    pose proof (fold_writes_len off n1 s n W
      ({| all_conn := repeat s n; all_mel := all_mel b; all_use := all_use b |}, 0)) as L.
    destruct L as (L1 & L2 & L3).
    { destruct GB as ((H1 & H2 & H3) & _). unfold buf_len; cbn [fst all_conn all_mel all_use]. rewrite repeat_length. auto. }
    unfold buf_len; cbn [all_conn all_mel all_use]. rewrite upd_length. auto.
  Qed.

  Lemma init_len : buf_len n (fst ({| all_conn := repeat s n; all_mel := all_mel b; all_use := all_use b |}, 0)).
  Proof. destruct GB as ((H1 & H2 & H3) & _). unfold buf_len; cbn [fst all_conn all_mel all_use]. rewrite repeat_length. auto. Qed.

  Lemma column_slot_written w : In w W ->
    nth (S (key w)) (all_conn r) [] = new_conn n1 s w s /\
    nth (S (key w)) (all_mel r) 0 = new_mel off n1 s w /\
    nth (S (key w)) (all_use r) false = new_use n1 s w.
  Proof.
    intros Hw. rewrite column_eq. cbv zeta. cbn [all_conn all_mel all_use].
    rewrite nth_upd_other by lia.
    assert (K : forall v, In v W -> (S (key v) < n)%nat).
    { intros v Hv. pose proof (all_writes_keys pbc dim n0 n1 v G Hv). unfold n. lia. }
    destruct (fold_writes_in off n1 s n W _ w (all_writes_NoDup pbc dim n0 n1 G) init_len K Hw) as (E1 & E2 & E3).
    rewrite E1, E2, E3. cbn [fst all_conn]. split; [|auto].
    f_equal. rewrite (nth_indep _ [] s) by (rewrite repeat_length; auto). apply nth_repeat.
  Qed.

  Lemma column_slot_unwritten k : (k < n)%nat -> k <> 0%nat -> ~ In (k - 1)%nat (map key W) ->
    nth k (all_conn r) [] = s /\ nth k (all_mel r) 0 = 0 /\ nth k (all_use r) false = false.
  Proof.
    intros Hk H0 HW. rewrite column_eq. cbv zeta. cbn [all_conn all_mel all_use].
    rewrite nth_upd_other by lia.
    destruct (fold_writes_other off n1 s W ({| all_conn := repeat s n; all_mel := all_mel b; all_use := all_use b |}, 0) k) as (E1 & E2 & E3).
    { intros w Hw E. apply HW. subst k. replace (S (key w) - 1)%nat with (key w) by lia. now apply in_map. }
    rewrite E1, E2, E3. cbn [fst all_conn all_mel all_use].
    destruct GB as (_ & _ & GB3). destruct (GB3 k Hk H0 HW) as [-> ->].
    rewrite (nth_indep _ [] s) by (rewrite repeat_length; auto). rewrite nth_repeat. auto.
  Qed.

  Lemma column_slot_0 :
    nth 0 (all_conn r) [] = s /\ nth 0 (all_mel r) 0 = Zsum (product n1 s) W /\ nth 0 (all_use r) false = true.
  Proof.
    rewrite column_eq. cbv zeta. cbn [all_conn all_mel all_use].
    destruct (fold_writes_other off n1 s W ({| all_conn := repeat s n; all_mel := all_mel b; all_use := all_use b |}, 0) 0) as (E1 & E2 & E3).
    { intros w Hw E. discriminate. }
    rewrite E1, E3. rewrite nth_upd_same.
    2: { pose proof (fold_writes_len off n1 s n W _ init_len) as (_ & L & _). rewrite L. unfold n. lia. }
    rewrite fold_writes_sum. cbn [fst snd all_conn all_use]. destruct GB as (_ & GB2 & _). rewrite GB2.
    split; [|auto]. unfold n. rewrite Nat.add_1_r. reflexivity.
  Qed.

  Lemma column_good : good_buffers pbc dim n0 n1 r.
  Proof.
    split; [apply column_len|]. split; [apply column_slot_0|].
    intros k Hk H0 HW. destruct (column_slot_unwritten k Hk H0 HW) as (_ & E2 & E3). auto.
  Qed.
End Column.

Lemma in_keys_dec k W : {w : write | In w W /\ key w = k} + {~ In k (map key W)}.
Proof.
  induction W as [|w W IH].
  - right. intros [].
  - destruct (Nat.eq_dec (key w) k) as [E|E].
    + left. exists w. split; [now left | auto].
    + destruct IH as [(v & H1 & H2)|H].
      * left. exists v. split; [now right | auto].
      * right. intros [H'|H']; auto.
Qed.

(** The result does not depend on the earlier contents of the buffers. *)
Lemma column_pure off pbc dim n0 n1 s b b' : good_dims dim n0 n1 ->
  good_buffers pbc dim n0 n1 b -> good_buffers pbc dim n0 n1 b' ->
  column_find_conn off pbc dim n0 n1 s b = column_find_conn off pbc dim n0 n1 s b'.
Proof.
  intros G GB GB'.
  pose proof (column_len off pbc dim n0 n1 s b GB) as (L1 & L2 & L3).
  pose proof (column_len off pbc dim n0 n1 s b' GB') as (L1' & L2' & L3').
  assert (P : forall k, (k < n0 * n1 * dim + 1)%nat ->
    nth k (all_conn (column_find_conn off pbc dim n0 n1 s b)) [] = nth k (all_conn (column_find_conn off pbc dim n0 n1 s b')) [] /\
    nth k (all_mel (column_find_conn off pbc dim n0 n1 s b)) 0 = nth k (all_mel (column_find_conn off pbc dim n0 n1 s b')) 0 /\
    nth k (all_use (column_find_conn off pbc dim n0 n1 s b)) false = nth k (all_use (column_find_conn off pbc dim n0 n1 s b')) false).
  { intros k Hk. destruct (Nat.eq_dec k 0) as [->|H0].
    - destruct (column_slot_0 off pbc dim n0 n1 s b GB) as (-> & -> & ->).
      destruct (column_slot_0 off pbc dim n0 n1 s b' GB') as (-> & -> & ->). auto.
    - destruct (in_keys_dec (k - 1) (all_writes pbc dim n0 n1)) as [(w & Hw & E)|H].
      + replace k with (S (key w)) by lia.
        destruct (column_slot_written off pbc dim n0 n1 s b G GB w Hw) as (-> & -> & ->).
        destruct (column_slot_written off pbc dim n0 n1 s b' G GB' w Hw) as (-> & -> & ->). auto.
      + destruct (column_slot_unwritten off pbc dim n0 n1 s b GB k Hk H0 H) as (-> & -> & ->).
        destruct (column_slot_unwritten off pbc dim n0 n1 s b' GB' k Hk H0 H) as (-> & -> & ->). auto. }
  destruct (column_find_conn off pbc dim n0 n1 s b) as [c1 m1 u1].
  destruct (column_find_conn off pbc dim n0 n1 s b') as [c2 m2 u2].
  cbn [all_conn all_mel all_use] in *.
  assert (c1 = c2) as -> by (apply (list_ext_nth []); [lia|]; intros; apply P; lia).
  assert (m1 = m2) as -> by (apply (list_ext_nth 0); [lia|]; intros; apply P; lia).
  assert (u1 = u2) as -> by (apply (list_ext_nth false); [lia|]; intros; apply P; lia).
  reflexivity.
Qed.

(** * From writes to bonds *)
Lemma Zchain_sum (n : nat) (pbc : bool) (g : nat -> nat -> Z) (f : nat -> Z) :
  (1 < n)%nat ->
  (forall i, (i + 1 < n)%nat -> f i = g i (S i)) ->
  f (n - 1)%nat = (if pbc then g (n - 1)%nat 0%nat else 0) ->
  Zsum f (range n) = Zsum (fun b => g (fst b) (snd b)) (chain_bonds n pbc).
Proof.
  intros Hn Hb He. unfold chain_bonds, range. rewrite Zsum_app, Zsum_map.
  destruct n as [|n]; [lia|]. rewrite seq_S, Zsum_app, Zsum_cons, Zsum_nil.
  replace (S n - 1)%nat with n in * by lia. f_equal.
  - apply Zsum_ext. intros i Hi. apply in_seq in Hi. cbn [fst snd]. apply Hb. lia.
  - rewrite Nat.add_0_l, He. destruct pbc.
    + assert (1 <? S n = true)%nat as -> by (apply Nat.ltb_lt; lia). cbn [andb].
      rewrite Zsum_cons, Zsum_nil. cbn [fst snd]. lia.
    + reflexivity.
Qed.

Lemma chain_bonds_1 pbc : chain_bonds 1 pbc = [].
Proof. unfold chain_bonds. now destruct pbc. Qed.

(** A quantity attached to pairs of flat sites, read off a write. *)
Definition on_write (n1 : nat) (g : nat -> nat -> Z) (w : write) : Z :=
  match w with
  | (_, (i, j), Some (i', j')) => g (i * n1 + j)%nat (i' * n1 + j')%nat
  | _ => 0
  end.

Lemma writes_bonds pbc dim n0 n1 (g : nat -> nat -> Z) : (0 < n0)%nat -> (0 < n1)%nat ->
  Zsum (on_write n1 g) (all_writes pbc dim n0 n1) = Zsum (fun b => g (fst b) (snd b)) (grid_bonds n0 n1 pbc).
Proof.
  intros H0 H1. unfold all_writes, grid_bonds. rewrite Zsum_app, !Zsum_flat_map.
  rewrite (Zsum_ext _ (fun i =>
    Zsum (fun j => if (1 <? n0)%nat then on_write n1 g (0%nat, (i, j), vertical pbc n0 i j) else 0) (range n1) +
    Zsum (fun j => if (1 <? n1)%nat then on_write n1 g (0%nat, (i, j), horizontal pbc n1 i j) else 0) (range n1))).
  2: { intros i _. rewrite Zsum_flat_map, <- Zsum_plus. apply Zsum_ext. intros j _. unfold site_writes.
       rewrite Zsum_app. destruct (1 <? n0)%nat, (1 <? n1)%nat; rewrite ?Zsum_cons, ?Zsum_nil; cbn [on_write]; lia. }
  rewrite Zsum_plus. f_equal.
  - rewrite Zsum_exchange. apply Zsum_ext. intros j Hj. rewrite Zsum_map. cbn [fst snd].
    destruct (Nat.ltb_spec 1 n0) as [H|H].
    + rewrite (Zchain_sum n0 pbc (fun i i' => g (i * n1 + j)%nat (i' * n1 + j)%nat)); auto.
      * intros i Hi. cbn [on_write]. unfold vertical.
        rewrite (proj2 (Nat.ltb_lt (i + 1) n0)) by lia. now rewrite Nat.add_1_r.
      * cbn [on_write]. unfold vertical. replace (n0 - 1 + 1)%nat with n0 by lia. rewrite Nat.ltb_irrefl.
        now destruct pbc.
    + replace n0 with 1%nat by lia. rewrite chain_bonds_1, Zsum_zero. reflexivity.
  - apply Zsum_ext. intros i Hi. rewrite Zsum_map. cbn [fst snd].
    destruct (Nat.ltb_spec 1 n1) as [H|H].
    + rewrite (Zchain_sum n1 pbc (fun j j' => g (i * n1 + j)%nat (i * n1 + j')%nat)); auto.
      * intros j Hj. cbn [on_write]. unfold horizontal.
        rewrite (proj2 (Nat.ltb_lt (j + 1) n1)) by lia. now rewrite Nat.add_1_r.
      * cbn [on_write]. unfold horizontal. replace (n1 - 1 + 1)%nat with n1 by lia. rewrite Nat.ltb_irrefl.
        now destruct pbc.
    + replace n1 with 1%nat by lia. rewrite chain_bonds_1, Zsum_zero. reflexivity.
Qed.

Lemma write_in_range pbc dim n0 n1 k i j i' j' :
  In (k, (i, j), Some (i', j')) (all_writes pbc dim n0 n1) ->
  (i * n1 + j < n0 * n1)%nat /\ (i' * n1 + j' < n0 * n1)%nat /\ (i * n1 + j <> i' * n1 + j')%nat.
Proof.
  unfold all_writes. intros H. apply in_flat_map in H. destruct H as (a & Ha & H).
  apply in_flat_map in H. destruct H as (c & Hc & H). apply in_range in Ha, Hc.
  unfold site_writes, vertical, horizontal in H. apply in_app_or in H.
  destruct H as [H|H].
  - destruct (Nat.ltb_spec 1 n0); [|destruct H]. destruct H as [H|[]]. 
    destruct (Nat.ltb_spec (a + 1) n0); [|destruct pbc; [|discriminate]]; injection H; intros; subst; nia.
  - destruct (Nat.ltb_spec 1 n1); [|destruct H]. destruct H as [H|[]].
    destruct (Nat.ltb_spec (c + 1) n1); [|destruct pbc; [|discriminate]]; injection H; intros; subst; nia.
Qed.

Lemma exchanged_iff a b s t : (a < length s)%nat -> (b < length s)%nat ->
  exchanged a b s t = true <-> upd (upd s a (spin s b)) b (spin s a) = t.
Proof.
  intros Ha Hb. unfold exchanged. rewrite andb_true_iff, Nat.eqb_eq, forallb_forall. split.
  - intros [L H]. apply (list_ext_nth 0); [rewrite !upd_length; lia|].
    rewrite !upd_length. intros i Hi. specialize (H i). rewrite in_seq in H.
    specialize (H ltac:(lia)). apply Z.eqb_eq in H. unfold spin in *. rewrite H. clear H.
    destruct (Nat.eqb_spec i a) as [->|Na].
    + destruct (Nat.eq_dec a b) as [<-|Nb].
      * rewrite nth_upd_same by (rewrite upd_length; lia). reflexivity.
      * rewrite nth_upd_other by lia. now rewrite nth_upd_same.
    + destruct (Nat.eqb_spec i b) as [->|Nb].
      * now rewrite nth_upd_same by (rewrite upd_length; lia).
      * now rewrite !nth_upd_other by lia.
  - intros <-. split; [now rewrite !upd_length|]. intros i Hi. apply in_seq in Hi. apply Z.eqb_eq.
    unfold spin. destruct (Nat.eqb_spec i a) as [->|Na].
    + destruct (Nat.eq_dec a b) as [<-|Nb].
      * rewrite nth_upd_same by (rewrite upd_length; lia). reflexivity.
      * rewrite nth_upd_other by lia. now rewrite nth_upd_same.
    + destruct (Nat.eqb_spec i b) as [->|Nb].
      * now rewrite nth_upd_same by (rewrite upd_length; lia).
      * now rewrite !nth_upd_other by lia.
Qed.


Lemma column_row off pbc dim n0 n1 s b t : good_dims dim n0 n1 -> good_buffers pbc dim n0 n1 b ->
  length s = (n0 * n1)%nat ->
  let r := column_find_conn off pbc dim n0 n1 s b in
  used_row_sum (all_conn r) (all_mel r) (all_use r) t = heisenberg_element off (grid_bonds n0 n1 pbc) s t.
Proof.
  intros G GB Ls r. unfold used_row_sum.
  pose proof (column_len off pbc dim n0 n1 s b GB) as (L1 & L2 & L3). fold r in L1, L2, L3.
  rewrite L1. unfold range. rewrite Nat.add_1_r. cbn [seq]. rewrite Zsum_cons.
  destruct (column_slot_0 off pbc dim n0 n1 s b GB) as (E1 & E2 & E3). fold r in E1, E2, E3.
  rewrite E1, E2, E3. cbn [andb]. unfold heisenberg_element.
  pose proof G as [[H0 H1] _].
  assert (D : Zsum (product n1 s) (all_writes pbc dim n0 n1) =
              Zsum (fun b => spin s (fst b) * spin s (snd b)) (grid_bonds n0 n1 pbc)).
  { rewrite <- (writes_bonds pbc dim n0 n1 (fun a b => spin s a * spin s b) H0 H1). apply Zsum_ext.
    intros [[k [i j]] [[i' j']|]] _; reflexivity. }
  rewrite D. f_equal. { destruct (list_eq_dec Z.eq_dec s t); reflexivity. }
  rewrite <- seq_shift, Zsum_map.
  rewrite (Zsum_sub _ (map key (all_writes pbc dim n0 n1))).
  - rewrite Zsum_map.
    rewrite <- (writes_bonds pbc dim n0 n1
      (fun a b => if negb (spin s a =? spin s b) && exchanged a b s t then off else 0) H0 H1).
    apply Zsum_ext. intros w Hw.
    destruct (column_slot_written off pbc dim n0 n1 s b G GB w Hw) as (F1 & F2 & F3).
    fold r in F1, F2, F3. rewrite F1, F2, F3. clear F1 F2 F3.
    destruct w as [[k [i j]] [[i' j']|]]; cbn [new_use new_conn on_write new_mel]; [|reflexivity].
    destruct (write_in_range _ _ _ _ _ _ _ _ _ Hw) as (R1 & R2 & _).
    unfold at2, set2, new_mel. cbn [new_use].
    fold (spin s (i * n1 + j)). fold (spin s (i' * n1 + j')). unfold at2.
    fold (spin s (i * n1 + j)). fold (spin s (i' * n1 + j')).
    destruct (negb (spin s (i * n1 + j) =? spin s (i' * n1 + j'))); cbn [andb]; [|reflexivity].
    pose proof (exchanged_iff (i * n1 + j) (i' * n1 + j') s t ltac:(lia) ltac:(lia)) as EX.
    destruct (list_eq_dec Z.eq_dec _ t) as [E|E]; destruct (exchanged _ _ s t); auto.
    + apply EX in E. discriminate.
    + exfalso. apply E, EX. reflexivity.
  - now apply all_writes_NoDup.
  - apply seq_NoDup.
  - intros k Hk. apply in_map_iff in Hk. destruct Hk as (w & <- & Hw). apply in_seq.
    pose proof (all_writes_keys _ _ _ _ _ G Hw). lia.
  - intros k Hk HW. apply in_seq in Hk.
    destruct (column_slot_unwritten off pbc dim n0 n1 s b GB (S k)) as (F1 & F2 & F3); try lia.
    { now replace (S k - 1)%nat with k by lia. }
    fold r in F3. rewrite F3. reflexivity.
Qed.

Lemma sumZ_upd l : forall i v, (i < length l)%nat -> sumZ (upd l i v) = sumZ l - nth i l 0 + v.
Proof.
  induction l as [|a l IH]; intros [|i] v H; cbn [length upd nth sumZ fold_right] in *; try lia.
  fold (sumZ (upd l i v)). fold (sumZ l). rewrite IH by lia. lia.
Qed.

Lemma column_connections off pbc dim n0 n1 s b : good_dims dim n0 n1 -> good_buffers pbc dim n0 n1 b ->
  length s = (n0 * n1)%nat ->
  let r := column_find_conn off pbc dim n0 n1 s b in
  length (all_conn r) = (n0 * n1 * dim + 1)%nat /\
  nth 0 (all_conn r) [] = s /\ nth 0 (all_use r) false = true /\
  forall k, (0 < k < length (all_conn r))%nat ->
    if nth k (all_use r) false then
      nth k (all_mel r) 0 = off /\ sumZ (nth k (all_conn r) []) = sumZ s /\ nth k (all_conn r) [] <> s /\
      (Forall is_spin s -> Forall is_spin (nth k (all_conn r) [])) /\ length (nth k (all_conn r) []) = length s
    else nth k (all_mel r) 0 = 0.
Proof.
  intros G GB Ls r.
  pose proof (column_len off pbc dim n0 n1 s b GB) as (L1 & L2 & L3). fold r in L1, L2, L3.
  destruct (column_slot_0 off pbc dim n0 n1 s b GB) as (E1 & E2 & E3). fold r in E1, E2, E3.
  split; [exact L1|]. split; [exact E1|]. split; [exact E3|].
  intros k Hk. rewrite L1 in Hk.
  destruct (in_keys_dec (k - 1) (all_writes pbc dim n0 n1)) as [(w & Hw & E)|H].
  - replace k with (S (key w)) by lia.
    destruct (column_slot_written off pbc dim n0 n1 s b G GB w Hw) as (F1 & F2 & F3).
    fold r in F1, F2, F3. rewrite F1, F2, F3. unfold new_mel.
    destruct w as [[k' [i j]] [[i' j']|]]; cbn [new_use new_conn] in *; [|reflexivity].
    destruct (write_in_range _ _ _ _ _ _ _ _ _ Hw) as (R1 & R2 & R3).
    unfold at2, set2. destruct (Z.eqb_spec (nth (i * n1 + j) s 0) (nth (i' * n1 + j') s 0)) as [Q|Q]; cbn [negb];
      [reflexivity|].
    split; [reflexivity|]. split; [|split; [|split]].
    + rewrite sumZ_upd by (rewrite upd_length; lia). rewrite sumZ_upd by lia.
      rewrite nth_upd_other by lia. lia.
    + intros X. apply (f_equal (fun l => nth (i * n1 + j) l 0)) in X. cbv beta in X.
      rewrite nth_upd_other in X by lia. rewrite nth_upd_same in X by lia. congruence.
    + intros F. rewrite Forall_forall in *. intros x Hx.
      apply (In_nth _ _ 0) in Hx. destruct Hx as (p & Hp & <-). rewrite !upd_length in Hp.
      destruct (Nat.eq_dec p (i' * n1 + j')) as [->|N1].
      * rewrite nth_upd_same by (rewrite upd_length; lia). apply F. apply nth_In. lia.
      * rewrite nth_upd_other by lia. destruct (Nat.eq_dec p (i * n1 + j)) as [->|N2].
        -- rewrite nth_upd_same by lia. apply F. apply nth_In. lia.
        -- rewrite nth_upd_other by lia. apply F. apply nth_In. lia.
    + now rewrite !upd_length.
  - destruct (column_slot_unwritten off pbc dim n0 n1 s b GB k) as (F1 & F2 & F3); try lia; auto.
    fold r in F1, F2, F3. rewrite F2, F3. reflexivity.
Qed.

(** * Symmetry of the matrix *)
Lemma exchanged_sym a b s t : (a < length s)%nat -> (b < length s)%nat -> a <> b ->
  exchanged a b s t = true -> exchanged a b t s = true /\ spin t a = spin s b /\ spin t b = spin s a.
Proof.
  intros Ha Hb N H. apply exchanged_iff in H; auto. subst t.
  assert (E1 : spin (upd (upd s a (spin s b)) b (spin s a)) a = spin s b).
  { unfold spin at 1. rewrite nth_upd_other by lia. now rewrite nth_upd_same. }
  assert (E2 : spin (upd (upd s a (spin s b)) b (spin s a)) b = spin s a).
  { unfold spin at 1. now rewrite nth_upd_same by (rewrite upd_length; lia). }
  split; [|split; assumption].
  apply exchanged_iff; [now rewrite !upd_length | now rewrite !upd_length |]. rewrite E1, E2.
  apply (list_ext_nth 0); [now rewrite !upd_length|]. rewrite !upd_length. intros i Hi. unfold spin.
  destruct (Nat.eq_dec i b) as [->|Nb].
  - now rewrite nth_upd_same by (rewrite !upd_length; lia).
  - rewrite nth_upd_other by lia. destruct (Nat.eq_dec i a) as [->|Na].
    + now rewrite nth_upd_same by (rewrite !upd_length; lia).
    + now rewrite !nth_upd_other by lia.
Qed.

Lemma heisenberg_symmetric off n bonds s t : bonds_ok n bonds -> length s = n -> length t = n ->
  heisenberg_element off bonds s t = heisenberg_element off bonds t s.
Proof.
  intros B Ls Lt. unfold heisenberg_element. f_equal.
  - destruct (list_eq_dec Z.eq_dec s t) as [E|N].
    + subst t. destruct (list_eq_dec Z.eq_dec s s); congruence.
    + destruct (list_eq_dec Z.eq_dec t s); congruence.
  - apply Zsum_ext. intros [a b] Hb. cbn [fst snd]. unfold bonds_ok in B. rewrite Forall_forall in B.
    destruct (B _ Hb) as (Ha & Hb' & N). cbn [fst snd] in *.
    destruct (exchanged a b s t) eqn:E.
    + destruct (exchanged_sym a b s t) as (E' & E1 & E2); auto; try lia. rewrite E', E1, E2.
      now rewrite Z.eqb_sym.
    + destruct (exchanged a b t s) eqn:E'.
      * destruct (exchanged_sym a b t s) as (E'' & _); auto; try lia. congruence.
      * now rewrite !andb_false_r.
Qed.

Lemma chain_bonds_ok n pbc : bonds_ok n (chain_bonds n pbc).
Proof.
  unfold chain_bonds, bonds_ok. apply Forall_app. split.
  - apply Forall_forall. intros b H. apply in_map_iff in H. destruct H as (i & <- & Hi). apply in_seq in Hi.
    cbn [fst snd]. lia.
  - destruct pbc; cbn [andb]; [|constructor]. destruct (Nat.ltb_spec 1 n); [|constructor].
    constructor; [|constructor]. cbn [fst snd]. lia.
Qed.

Lemma grid_bonds_ok n m pbc : bonds_ok (n * m) (grid_bonds n m pbc).
Proof.
  unfold grid_bonds, bonds_ok. apply Forall_app. split; apply Forall_forall; intros b H;
    apply in_flat_map in H; destruct H as (j & Hj & H); apply in_seq in Hj;
    apply in_map_iff in H; destruct H as (c & <- & Hc).
  - pose proof (chain_bonds_ok n pbc) as B. unfold bonds_ok in B. rewrite Forall_forall in B. destruct (B c Hc) as (B1 & B2 & B3).
    cbn [fst snd]. nia.
  - pose proof (chain_bonds_ok m pbc) as B. unfold bonds_ok in B. rewrite Forall_forall in B. destruct (B c Hc) as (B1 & B2 & B3).
    cbn [fst snd]. nia.
Qed.

Lemma grid_bonds_chain n pbc : grid_bonds n 1 pbc = chain_bonds n pbc.
Proof.
  unfold grid_bonds. rewrite chain_bonds_1. cbn [seq flat_map map].
  assert (E : forall l : list nat, flat_map (fun _ : nat => ([] : list (nat * nat))) l = []).
  { induction l; auto. }
  rewrite E, !app_nil_r.
  rewrite <- map_id. apply map_ext. intros [a b]. cbn [fst snd]. f_equal; lia.
Qed.

(** * Histories of calls *)
(** The operator constructed with [shape]. *)
Definition rows_of (shape : list nat) : nat := nth 0 shape 0%nat.
Definition cols_of (shape : list nat) : nat := nth 1 shape 1%nat.
Definition padded_shape (shape : list nat) : list nat := [rows_of shape; cols_of shape].

Lemma good_heis_dims shape : chain_or_grid shape -> good_dims (length shape) (rows_of shape) (cols_of shape) /\
  max_number_of_local_connections shape = (rows_of shape * cols_of shape * length shape + 1)%nat /\
  (if (length shape =? 1)%nat then shape ++ [1%nat] else shape) = padded_shape shape /\ (length shape <=? 2)%nat = true.
Proof.
  intros [(n & -> & H)|(n & m & -> & H1 & H2)]; unfold rows_of, cols_of, padded_shape, good_dims,
    max_number_of_local_connections; cbn [nth length fold_right Nat.eqb app].
  - split; [lia|]. split; [lia|]. split; reflexivity.
  - split; [lia|]. split; [lia|]. split; reflexivity.
Qed.

Record ham_inv (shape : list nat) (off : Z) (pbc : bool) (H : heisenberg) : Prop := {
  inv_shape : ham_shape H = shape \/ ham_shape H = padded_shape shape;
  inv_dim : ham_dim H = length shape;
  inv_conn : ham_num_conn H = max_number_of_local_connections shape;
  inv_off : ham_off H = off;
  inv_pbc : ham_pbc H = pbc;
  inv_calc : forall k bufs, lookup k (calculators H) = Some bufs ->
    ham_shape H = padded_shape shape /\ length bufs = k /\
    Forall (good_buffers pbc (length shape) (rows_of shape) (cols_of shape)) bufs
}.

Lemma init_inv shape rot pbc : ham_inv shape (off_diag rot) pbc (heisenberg_init shape rot pbc).
Proof. constructor; cbn; auto. intros; discriminate. Qed.

Lemma lookup_store_same {A} k (v : A) l : lookup k (store_at k v l) = Some v.
Proof.
  induction l as [|[k' w] l IH]; cbn [store_at lookup].
  - now rewrite Nat.eqb_refl.
  - destruct (k =? k')%nat eqn:E; cbn [lookup].
    + now rewrite Nat.eqb_refl.
    + now rewrite E.
Qed.
Lemma lookup_store_other {A} k k' (v : A) l : k' <> k -> lookup k' (store_at k v l) = lookup k' l.
Proof.
  intros N. induction l as [|[k2 w] l IH]; cbn [store_at lookup].
  - destruct (Nat.eqb_spec k' k); [congruence|reflexivity].
  - destruct (Nat.eqb_spec k k2) as [->|N2]; cbn [lookup].
    + destruct (Nat.eqb_spec k' k2); [congruence|reflexivity].
    + now rewrite IH.
Qed.

(** The contents computed on fresh buffers, for a batch. *)
Definition fresh_contents (shape : list nat) (off : Z) (pbc : bool) (sample : list (list Z)) : list buffers :=
  map (fun s => column_find_conn off pbc (length shape) (rows_of shape) (cols_of shape) s
    (new_buffers (rows_of shape * cols_of shape * length shape + 1) (rows_of shape * cols_of shape))) sample.

Lemma map2_column off pbc dim n0 n1 size sample : good_dims dim n0 n1 -> forall bufs, length bufs = length sample ->
  Forall (good_buffers pbc dim n0 n1) bufs ->
  map2 (column_find_conn off pbc dim n0 n1) sample bufs =
  map (fun s => column_find_conn off pbc dim n0 n1 s (new_buffers (n0 * n1 * dim + 1) size)) sample /\
  Forall (good_buffers pbc dim n0 n1) (map2 (column_find_conn off pbc dim n0 n1) sample bufs).
Proof.
  intros G. induction sample as [|s sample IH]; intros [|b bufs] L F; cbn [length] in L; try lia; cbn [map2 map].
  - auto.
  - inversion F as [|? ? Fb Fr]; subst. destruct (IH bufs) as [E1 E2]; auto. split.
    + f_equal; auto. apply column_pure; auto. apply new_buffers_good.
    + constructor; auto. now apply column_good.
Qed.

Lemma find_conn_step shape off pbc H sample : chain_or_grid shape -> ham_inv shape off pbc H ->
  exists H', heisenberg_find_conn H sample = Ok (H', length sample) /\ ham_inv shape off pbc H' /\
    ham_shape H' = padded_shape shape /\
    read_result H' (length sample) = fresh_contents shape off pbc sample /\
    (forall k, k <> length sample -> read_result H' k = read_result H k).
Proof.
  intros Gs I. destruct (good_heis_dims shape Gs) as (G & EC & EP & EL).
  unfold heisenberg_find_conn.
  assert (S1 : exists H1, match lookup (length sample) (calculators H) with
                          | Some _ => Ok H | None => new_calculator H (length sample) end = Ok H1 /\
            ham_inv shape off pbc H1 /\
            (exists bufs, lookup (length sample) (calculators H1) = Some bufs) /\
            (forall k, k <> length sample -> lookup k (calculators H1) = lookup k (calculators H))).
  { destruct (lookup (length sample) (calculators H)) as [bufs|] eqn:E.
    - exists H. split; [reflexivity|]. split; [exact I|]. split; eauto.
    - unfold new_calculator. rewrite (inv_dim _ _ _ _ I), EL. eexists. split; [reflexivity|]. split.
      + assert (SH : (if (length (ham_shape H) =? 1)%nat then ham_shape H ++ [1%nat] else ham_shape H) = padded_shape shape).
        { destruct (inv_shape _ _ _ _ I) as [->| ->]; auto. }
        constructor; cbn [ham_shape ham_dim ham_num_conn ham_off ham_pbc calculators];
          try (apply I); auto.
        intros k bufs Hk. split; [exact SH|].
        destruct (Nat.eq_dec k (length sample)) as [->|N].
        * rewrite lookup_store_same in Hk. injection Hk as <-. rewrite repeat_length. split; [auto|].
          apply Forall_forall. intros b Hb. apply repeat_spec in Hb. subst b.
          rewrite (inv_conn _ _ _ _ I), EC. apply new_buffers_good.
        * rewrite lookup_store_other in Hk by auto. destruct (inv_calc _ _ _ _ I k bufs Hk) as (_ & L & F). auto.
      + cbn [calculators]. split.
        * eexists. apply lookup_store_same.
        * intros k N. now apply lookup_store_other. }
  destruct S1 as (H1 & -> & I1 & (bufs & Eb) & Ho). cbn [bind]. unfold run_calculator. rewrite Eb.
  destruct (inv_calc _ _ _ _ I1 _ _ Eb) as (SH & L & F). rewrite SH. unfold padded_shape at 1. cbn [bind].
  rewrite (inv_off _ _ _ _ I1), (inv_pbc _ _ _ _ I1), (inv_dim _ _ _ _ I1).
  destruct (map2_column off pbc (length shape) (rows_of shape) (cols_of shape) (rows_of shape * cols_of shape)
              sample G bufs L F) as [E1 E2].
  eexists. split; [reflexivity|]. split; [|split; [|split]].
  - constructor; cbn [ham_shape ham_dim ham_num_conn ham_off ham_pbc calculators]; auto; try apply I1.
    intros k bs Hk. split; [reflexivity|].
    destruct (Nat.eq_dec k (length sample)) as [->|N].
    + rewrite lookup_store_same in Hk. injection Hk as <-. split; [|exact E2].
      rewrite E1, map_length. reflexivity.
    + rewrite lookup_store_other in Hk by auto. destruct (inv_calc _ _ _ _ I1 k bs Hk) as (_ & L' & F'). auto.
  - reflexivity.
  - unfold read_result. cbn [calculators]. rewrite lookup_store_same, E1. reflexivity.
  - intros k N. unfold read_result. cbn [calculators]. rewrite lookup_store_other by auto. now rewrite Ho.
Qed.

Lemma run_calls_inv shape off pbc batches : chain_or_grid shape -> forall H, ham_inv shape off pbc H ->
  exists H', run_calls H batches = Ok H' /\ ham_inv shape off pbc H'.
Proof.
  intros Gs. induction batches as [|b t IH]; intros H I; cbn [run_calls]; eauto.
  destruct (find_conn_step shape off pbc H b Gs I) as (H1 & -> & I1 & _). cbn [bind fst]. now apply IH.
Qed.

Lemma history_independent shape rot pbc batches sample : chain_or_grid shape ->
  exists H H1 H2 ref1 ref2,
    run_calls (heisenberg_init shape rot pbc) batches = Ok H /\
    heisenberg_find_conn H sample = Ok (H1, ref1) /\
    heisenberg_find_conn (heisenberg_init shape rot pbc) sample = Ok (H2, ref2) /\
    read_result H1 ref1 = read_result H2 ref2.
Proof.
  intros Gs. destruct (run_calls_inv shape (off_diag rot) pbc batches Gs _ (init_inv shape rot pbc)) as (H & E & I).
  destruct (find_conn_step _ _ _ H sample Gs I) as (H1 & E1 & _ & _ & R1 & _).
  destruct (find_conn_step _ _ _ _ sample Gs (init_inv shape rot pbc)) as (H2 & E2 & _ & _ & R2 & _).
  exists H, H1, H2, (length sample), (length sample). repeat split; auto. now rewrite R1, R2.
Qed.

Lemma overwritten shape rot pbc s1 s2 : chain_or_grid shape ->
  exists H1 H2 ref1 ref2,
    heisenberg_find_conn (heisenberg_init shape rot pbc) s1 = Ok (H1, ref1) /\
    heisenberg_find_conn H1 s2 = Ok (H2, ref2) /\
    (length s1 = length s2 -> read_result H2 ref1 = read_result H2 ref2) /\
    (length s1 <> length s2 -> read_result H2 ref1 = read_result H1 ref1).
Proof.
  intros Gs.
  destruct (find_conn_step _ _ _ _ s1 Gs (init_inv shape rot pbc)) as (H1 & E1 & I1 & _ & R1 & _).
  destruct (find_conn_step _ _ _ _ s2 Gs I1) as (H2 & E2 & _ & _ & R2 & O2).
  exists H1, H2, (length s1), (length s2). split; [auto|]. split; [auto|]. split; [now intros ->|auto].
Qed.

Lemma shape_mutation shape rot pbc sample : chain_or_grid shape ->
  exists H1 ref, heisenberg_find_conn (heisenberg_init shape rot pbc) sample = Ok (H1, ref) /\
    ham_shape H1 = (if (length shape =? 1)%nat then shape ++ [1%nat] else shape).
Proof.
  intros Gs. destruct (find_conn_step _ _ _ _ sample Gs (init_inv shape rot pbc)) as (H1 & E1 & _ & S & _).
  exists H1, (length sample). split; auto. rewrite S. now destruct (good_heis_dims shape Gs) as (_ & _ & -> & _).
Qed.

(** The result of a call after any history, sample by sample. *)

Lemma shape_bonds_grid shape pbc : chain_or_grid shape ->
  shape_bonds shape pbc = grid_bonds (rows_of shape) (cols_of shape) pbc /\
  sites_of shape = (rows_of shape * cols_of shape)%nat.
Proof.
  intros [(n & -> & H)|(n & m & -> & H1 & H2)]; unfold rows_of, cols_of, sites_of; cbn [shape_bonds nth fold_right].
  - rewrite grid_bonds_chain. split; [reflexivity | lia].
  - split; [reflexivity | lia].
Qed.

Lemma heisenberg_rows shape rot pbc batches sample : chain_or_grid shape ->
  exists H H1 ref,
    run_calls (heisenberg_init shape rot pbc) batches = Ok H /\
    heisenberg_find_conn H sample = Ok (H1, ref) /\
    length (read_result H1 ref) = length sample /\
    forall i s r, nth_error sample i = Some s -> nth_error (read_result H1 ref) i = Some r ->
      spins (sites_of shape) s ->
      length (all_conn r) = max_number_of_local_connections shape /\
      nth 0 (all_conn r) [] = s /\ nth 0 (all_use r) false = true /\
      (forall t, used_row_sum (all_conn r) (all_mel r) (all_use r) t =
                 heisenberg_element (off_diag rot) (shape_bonds shape pbc) s t) /\
      (forall k, (0 < k < length (all_conn r))%nat ->
         if nth k (all_use r) false then
           nth k (all_mel r) 0 = off_diag rot /\ sumZ (nth k (all_conn r) []) = sumZ s /\
           nth k (all_conn r) [] <> s /\ spins (sites_of shape) (nth k (all_conn r) [])
         else nth k (all_mel r) 0 = 0).
Proof.
  intros Gs. destruct (run_calls_inv shape (off_diag rot) pbc batches Gs _ (init_inv shape rot pbc)) as (H & E & I).
  destruct (find_conn_step _ _ _ H sample Gs I) as (H1 & E1 & _ & _ & R1 & _).
  exists H, H1, (length sample). split; [exact E|]. split; [exact E1|]. rewrite R1.
  split. { unfold fresh_contents. apply map_length. }
  intros i s r Hs Hr [Ls Fs].
  unfold fresh_contents in Hr. rewrite (map_nth_error _ _ _ Hs) in Hr. injection Hr as <-.
  destruct (good_heis_dims shape Gs) as (G & EC & _ & _).
  destruct (shape_bonds_grid shape pbc Gs) as [EB ES]. rewrite EB. rewrite ES in *.
  pose proof (new_buffers_good pbc (length shape) (rows_of shape) (cols_of shape) (rows_of shape * cols_of shape)) as NB.
  destruct (column_connections (off_diag rot) pbc _ _ _ s _ G NB Ls) as (C1 & C2 & C3 & C4).
  split; [now rewrite EC|]. split; [exact C2|]. split; [exact C3|]. split.
  - intros t. now apply column_row.
  - intros k Hk. specialize (C4 k Hk). destruct (nth k _ false); auto.
    destruct C4 as (D1 & D2 & D3 & D4 & D5). repeat split; auto. lia.
Qed.

(** * random_states *)
Lemma sumZ_repeat x n : sumZ (repeat x n) = Z.of_nat n * x.
Proof.
  induction n; cbn [repeat sumZ fold_right]; [reflexivity|]. fold (sumZ (repeat x n)). rewrite IHn. lia.
Qed.
Lemma sumZ_app l1 l2 : sumZ (l1 ++ l2) = sumZ l1 + sumZ l2.
Proof. induction l1; cbn [app sumZ fold_right]; [reflexivity|]. fold (sumZ (l1 ++ l2)) (sumZ l1). lia. Qed.
Lemma sumZ_perm l1 l2 : Permutation l1 l2 -> sumZ l1 = sumZ l2.
Proof. induction 1; unfold sumZ in *; cbn [fold_right] in *; lia. Qed.

Lemma row_length size z : 0 <= size + z -> 0 <= size - z ->
  length (repeat 1 (Z.to_nat (size + z)) ++ repeat (-1) (Z.to_nat (size - z))) = Z.to_nat (2 * size).
Proof. intros. rewrite app_length, !repeat_length. lia. Qed.

Lemma random_states_zero n shuffles total_sz : total_sz == 0 -> Nat.even n = true ->
  (forall f, In f shuffles -> forall l, Permutation (f l) l) ->
  exists states, random_states n total_sz shuffles = Ok states /\ length states = length shuffles /\
    forall s, In s states -> spins n s /\ sumZ s = 0.
Proof.
  intros H0 He Hf. apply Nat.even_spec in He. destruct He as [h ->].
  assert (P : py_int total_sz = 0).
  { unfold py_int, Qeq in *. cbn in H0. rewrite Z.mul_1_r in H0. rewrite H0. apply Z.quot_0_l. lia. }
  unfold random_states. rewrite P.
  assert (D : (2 * h / 2 = h)%nat) by (rewrite Nat.mul_comm; apply Nat.div_mul; lia).
  rewrite D. rewrite Z.add_0_r, Z.sub_0_r, Nat2Z.id.
  destruct shuffles as [|f shuffles].
  { exists []. split; [auto|]. split; [auto|]. intros s []. }
  rewrite (proj2 (Z.ltb_ge _ _)) by lia. cbn [orb].
  assert (L : length (repeat 1 h ++ repeat (-1) h) = (2 * h)%nat) by (rewrite app_length, !repeat_length; lia).
  rewrite L, Nat.eqb_refl. set (row := repeat 1 h ++ repeat (-1) h) in *.
  assert (Sum : forall s, In s (map (fun f => f row) (f :: shuffles)) -> spins (2 * h) s /\ sumZ s = 0).
  { intros s Hs. apply in_map_iff in Hs. destruct Hs as (g & <- & Hg).
    pose proof (Hf g Hg row) as Pm. split; [split|].
    - rewrite (Permutation_length Pm). lia.
    - apply Forall_forall. intros x Hx. apply (Permutation_in _ Pm) in Hx. unfold row in Hx.
      apply in_app_or in Hx. destruct Hx as [Hx|Hx]; apply repeat_spec in Hx; subst; [now left|now right].
    - rewrite (sumZ_perm _ _ Pm). unfold row. rewrite sumZ_app, !sumZ_repeat. lia. }
  assert (F : forallb (fun s => Qeq_bool (inject_Z (sumZ s)) total_sz) (map (fun f => f row) (f :: shuffles)) = true).
  { apply forallb_forall. intros s Hs. apply Qeq_bool_iff. destruct (Sum s Hs) as [_ ->]. rewrite H0. reflexivity. }
  rewrite F. eexists. split; [reflexivity|]. split; [now rewrite map_length|]. exact Sum.
Qed.

Lemma random_states_other n shuffles total_sz : shuffles <> [] ->
  (forall f, In f shuffles -> forall l, Permutation (f l) l) ->
  ~ (total_sz == 0) \/ Nat.even n = false ->
  exists e, random_states n total_sz shuffles = Err e.
Proof.
  intros Hne Hf H. unfold random_states. destruct shuffles as [|f shuffles]; [congruence|].
  set (size := Z.of_nat (n / 2)). set (z := py_int total_sz).
  destruct ((size + z <? 0) || (size - z <? 0)) eqn:E; [eauto|].
  apply orb_false_iff in E. destruct E as [E1 E2]. apply Z.ltb_ge in E1, E2.
  rewrite row_length by lia.
  destruct (Nat.eqb_spec (Z.to_nat (2 * size)) n) as [L|L]; [|eauto].
  assert (Ev : Nat.even n = true).
  { apply Nat.even_spec. exists (n / 2)%nat. unfold size in L. lia. }
  destruct H as [H|H]; [|congruence].
  match goal with |- context [forallb ?p ?l] => assert (F : forallb p l = false) end.
  2: { rewrite F. eauto. }
  cbn [map forallb]. apply andb_false_iff. left. apply not_true_iff_false. rewrite Qeq_bool_iff. intros Q.
  rewrite (sumZ_perm _ _ (Hf f (or_introl eq_refl) _)), sumZ_app, !sumZ_repeat in Q.
  rewrite !Z2Nat.id in Q by lia. replace ((size + z) * 1 + (size - z) * -1) with (2 * z) in Q by lia.
  apply H. unfold Qeq, inject_Z in *. cbn [Qnum Qden] in *.
  unfold z, py_int in Q.
  pose proof (Z.quot_rem' (Qnum total_sz) (Z.pos (Qden total_sz))) as QR.
  pose proof (Z.rem_bound_abs (Qnum total_sz) (Z.pos (Qden total_sz)) ltac:(lia)) as RB.
  set (q := Z.quot (Qnum total_sz) (Z.pos (Qden total_sz))) in *.
  set (r := Z.rem (Qnum total_sz) (Z.pos (Qden total_sz))) in *. 
  assert (r = q * Z.pos (Qden total_sz)) by lia.
  assert (q = 0) by nia. lia.
Qed.
