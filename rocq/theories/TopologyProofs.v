From Coq Require Import List ZArith Lia Arith Bool.
From Verif Require Import Base OrderingModel OrderingSpec OrderingProofs TensorModel TopologyModel TopologySpec.
Import ListNotations.

(** * Locations *)

Lemma in_shape_length sh l : in_shape sh l -> length l = length sh.
Proof. induction 1; cbn [length]; congruence. Qed.

Lemma in_shape_iff sh l : in_shape sh l <-> length l = length sh /\ forall d, d < length sh -> nth d l 0 < nth d sh 0.
Proof.
  split.
  - intros H. split; [now apply in_shape_length|]. induction H as [|a b l sh Hab H IH]; intros d Hd; cbn [length] in Hd; [lia|].
    destruct d as [|d]; cbn [nth]; [auto|]. apply IH. lia.
  - revert l. induction sh as [|n sh IH]; intros [|i l] [HL H]; cbn [length] in HL; try lia; constructor.
    + apply (H 0). cbn [length]. lia.
    + apply IH. split; [lia|]. intros d Hd. apply (H (S d)). cbn [length]. lia.
Qed.

Lemma nth_upd_eq {A} (l : list A) i j v d : nth j (upd l i v) d = if (j =? i) && (i <? length l) then v else nth j l d.
Proof.
  destruct (Nat.eqb_spec j i) as [->|N].
  - destruct (Nat.ltb_spec i (length l)); cbn [andb]; [now apply nth_upd_same|now rewrite upd_oob].
  - cbn [andb]. apply nth_upd_other. auto.
Qed.

Lemma upd_upd {A} (l : list A) i v w : upd (upd l i v) i w = upd l i w.
Proof. revert i; induction l as [|x l IH]; intros [|i]; cbn [upd]; auto. f_equal. apply IH. Qed.

Lemma upd_same_value {A} (l : list A) i d : upd l i (nth i l d) = l.
Proof. revert i; induction l as [|x l IH]; intros [|i]; cbn [upd nth]; auto. f_equal. apply IH. Qed.

Lemma in_shape_upd sh l d n i : in_shape sh l -> i < n -> in_shape (upd sh d n) (upd l d i).
Proof.
  intros H Hi. apply in_shape_iff in H. destruct H as [HL H]. apply in_shape_iff. rewrite !upd_length. split; [auto|].
  intros k Hk. rewrite !nth_upd_eq, HL. destruct ((k =? d) && (d <? length sh)); auto.
Qed.

Lemma insert_remove {A} d (x : A) l : d < length l -> insert_nth d x (remove_nth d l) = upd l d x.
Proof.
  unfold insert_nth, remove_nth. revert d; induction l as [|y l IH]; intros [|d] H; cbn [length] in H; try lia.
  - cbn [firstn app skipn upd]. reflexivity.
  - cbn [firstn app skipn upd]. f_equal. apply IH. lia.
Qed.

Lemma skipn_upd {A} (l : list A) d k x : d < k -> skipn k (upd l d x) = skipn k l.
Proof.
  revert d k; induction l as [|y l IH]; intros [|d] [|k] H; cbn [upd skipn]; try lia; auto. apply IH. lia.
Qed.

Lemma firstn_upd {A} (l : list A) d k x : k <= d -> firstn k (upd l d x) = firstn k l.
Proof.
  revert d k; induction l as [|y l IH]; intros [|d] [|k] H; cbn [upd firstn]; try lia; auto. f_equal. apply IH. lia.
Qed.

Lemma upd_firstn_skipn {A} (l : list A) d x : d < length l -> upd l d x = firstn d l ++ x :: skipn (S d) l.
Proof.
  revert d; induction l as [|y l IH]; intros [|d] H; cbn [length] in H; try lia; cbn [upd firstn app skipn]; auto.
  f_equal. apply IH. lia.
Qed.

Lemma skipn_nth {A} (l : list A) d x : d < length l -> skipn d l = nth d l x :: skipn (S d) l.
Proof.
  revert d; induction l as [|y l IH]; intros [|d] H; cbn [length] in H; try lia; cbn [skipn nth]; auto. apply IH. lia.
Qed.

Lemma firstn_S {A} (l : list A) d x : d < length l -> firstn (S d) l = firstn d l ++ [nth d l x].
Proof.
  revert d; induction l as [|y l IH]; intros [|d] H; cbn [length] in H; try lia; auto.
  change (firstn (S (S d)) (y :: l)) with (y :: firstn (S d) l). cbn [nth]. rewrite IH by lia. reflexivity.
Qed.

Lemma values_at_1 {V} (t : tensor V) l : in_shape (tshape t) l -> values_at [t] [dep0 l] [tval t l].
Proof. intros H. constructor; [|constructor]. exists t. split; [reflexivity|]. split; [exact H|reflexivity]. Qed.

(** * Convolution *)

Lemma conv_loc_swap {T} (c : conv T) l w :
  map2 Nat.add (map2 Nat.mul w (dilation_rate c)) (map2 Nat.mul l (strides c)) = conv_loc c l w.
Proof.
  unfold conv_loc. generalize (map2 Nat.mul w (dilation_rate c)) (map2 Nat.mul l (strides c)).
  induction l0 as [|a x IH]; intros [|b y]; cbn [map2]; auto. rewrite IH. f_equal. lia.
Qed.

Lemma conv_in_range (ns ks ss ds : list nat) : forall l w,
  length ks = length ns -> length ss = length ns -> length ds = length ns -> Forall (fun s => 0 < s) ss ->
  in_shape (conv_shape ns ks ss ds) l -> in_shape ks w ->
  in_shape ns (map2 Nat.add (map2 Nat.mul l ss) (map2 Nat.mul w ds)).
Proof.
  revert ks ss ds; induction ns as [|n ns IH]; intros [|k ks] [|s ss] [|d ds] l w Hk Hs Hd HP Hl Hw; cbn [length] in *; try lia.
  - constructor || (inversion Hl; inversion Hw; subst; constructor).
  - cbn [conv_shape] in Hl. inversion Hl as [|i x l' y Hi Hl']; subst. inversion Hw as [|j x w' y Hj Hw']; subst.
    inversion HP; subst. cbn [map2]. constructor.
    + unfold conv_size in Hi. destruct (Nat.ltb_spec n ((k - 1) * d + 1)) as [L|L]; [lia|].
      assert (i <= (n - ((k - 1) * d + 1)) / s) by lia.
      assert (i * s <= n - ((k - 1) * d + 1)).
      { transitivity ((n - ((k - 1) * d + 1)) / s * s); [apply Nat.mul_le_mono_r; lia|].
        rewrite Nat.mul_comm. apply Nat.mul_div_le. lia. }
      assert (j * d <= (k - 1) * d) by (apply Nat.mul_le_mono_r; lia). lia.
    + apply (IH ks ss ds l' w'); auto; lia.
Qed.

(** Rows of the flattened kernel: enumerating kernel locations and channels is enumerating rows. *)
Lemma flat_loop_app ks : forall w c x y, in_shape ks w -> flat_loop (w ++ [x]) (ks ++ [y]) c = flat_loop w ks c * y + x.
Proof.
  induction ks as [|k ks IH]; intros w c x y H; inversion H; subst; cbn [app flat_loop]; auto.
Qed.

Lemma flat_loop_app2 ks w c x y x2 y2 : in_shape ks w ->
  flat_loop (w ++ [x; x2]) (ks ++ [y; y2]) c = (flat_loop w ks c * y + x) * y2 + x2.
Proof.
  intros H. replace (w ++ [x; x2]) with ((w ++ [x]) ++ [x2]) by (now rewrite <- app_assoc).
  replace (ks ++ [y; y2]) with ((ks ++ [y]) ++ [y2]) by (now rewrite <- app_assoc).
  revert w c H. induction ks as [|k ks IH]; intros w c H; inversion H; subst; cbn [app flat_loop]; auto.
Qed.

(** Reading a concatenation of equally long rows. *)
Lemma rows_flat {T A} (zero : T) (m : nat) (rows : list (list T)) (g : nat -> T -> A) : forall off,
  Forall (fun r => length r = m) rows ->
  map (fun k => g (off + k) (nth k (concat rows) zero)) (range (length (concat rows))) =
  concat (map (fun iw => map (fun c => g (off + fst iw * m + c) (nth c (snd iw) zero)) (range m))
     (combine (range (length rows)) rows)).
Proof.
  unfold range. induction rows as [|r rows IH]; intros off HF; [reflexivity|].
  inversion HF as [|x y Hr HF']; subst. cbn [concat length seq combine map].
  rewrite app_length, seq_app, map_app. f_equal.
  - apply map_ext_in. intros k Hk. apply in_seq in Hk. cbn [fst snd]. rewrite app_nth1 by lia. f_equal. lia.
  - replace (0 + length r) with (length r + 0) by lia. rewrite <- (seq_map_add (length r) (length (concat rows)) 0), map_map.
    transitivity (map (fun k => g ((off + length r) + k) (nth k (concat rows) zero)) (seq 0 (length (concat rows)))).
    { apply map_ext_in. intros k Hk. rewrite app_nth2 by lia. f_equal; [lia|f_equal; lia]. }
    rewrite (IH (off + length r)) by auto. f_equal.
    rewrite <- (seq_shift (length rows) 0).
    assert (C : forall l (q : list (list T)), combine (map S l) q = map (fun iw => (S (fst iw), snd iw)) (combine l q)).
    { induction l as [|a l IHl]; intros [|b q]; cbn [map combine]; auto. f_equal. apply IHl. }
    rewrite C, map_map. apply map_ext. intros [i w]. cbn [fst snd]. apply map_ext. intros k. f_equal. lia.
Qed.

Lemma combine_range_map {A B C} (f : nat -> B -> C) (h : A -> B) (l : list A) (key : A -> nat) :
  map key l = range (length l) ->
  map (fun iw => f (fst iw) (snd iw)) (combine (range (length l)) (map h l)) = map (fun w => f (key w) (h w)) l.
Proof.
  intros H. rewrite <- H. clear H. induction l as [|a l IH]; cbn [map combine fst snd]; auto. f_equal. apply IH.
Qed.

Lemma conv_agrees {T} (zero : T) add mul (c : conv T) (t : tensor (list T)) :
  length (kernel_size c) = length (tshape t) -> length (strides c) = length (tshape t) ->
  length (dilation_rate c) = length (tshape t) -> Forall (fun s => 0 < s) (strides c) ->
  (forall l, in_shape (tshape t) l -> length (tval t l) = channels c) ->
  agrees [t] (fun l => Ok (conv_dependencies c l)) (fun _ vs => Ok (conv_apply zero add mul c vs))
    (conv_output zero add mul c t).
Proof.
  intros Hk Hs Hd HP Hch l Hl.
  set (vs := map (fun w => tval t (conv_loc c l w)) (raster (kernel_size c))).
  assert (HR : forall w, In w (raster (kernel_size c)) -> in_shape (tshape t) (conv_loc c l w)).
  { intros w Hw. apply in_raster in Hw. unfold conv_loc. apply (conv_in_range _ (kernel_size c)); auto. }
  eexists _, vs. split; [reflexivity|]. split.
  - unfold conv_dependencies, vs. clear Hl. revert HR. generalize (raster (kernel_size c)).
    induction l0 as [|w ws IH]; intros HR; cbn [map]; constructor.
    + exists t. split; [reflexivity|]. cbn [dep0 spatial_location]. rewrite conv_loc_swap.
      split; [apply HR; now left|reflexivity].
    + apply IH. intros; apply HR; now right.
  - f_equal. unfold conv_apply, conv_output. cbn [tval]. f_equal.
    match goal with |- match bias c with None => ?a | Some b => _ end = match bias c with None => ?b' | Some _ => _ end =>
      assert (E : a = b'); [|rewrite E; reflexivity] end.
    apply map_ext. intros f. f_equal.
    etransitivity; [apply (rows_flat zero (channels c) vs (fun k x => mul x (nth (k * filters c + f) (kernel c) zero)) 0)|].
    1:{ unfold vs. apply Forall_forall. intros r Hr. apply in_map_iff in Hr. destruct Hr as (w & <- & Hw). auto. }
    rewrite flat_map_concat_map. f_equal. unfold vs. rewrite map_length.
    etransitivity; [apply (combine_range_map (fun i r => map (fun ch => mul (nth ch r zero)
       (nth ((0 + i * channels c + ch) * filters c + f) (kernel c) zero)) (range (channels c)))
       (fun w => tval t (conv_loc c l w)) (raster (kernel_size c)) (row_major (kernel_size c)))|].
    1:{ rewrite raster_length. apply raster_row_major. }
    apply map_ext_in. intros w Hw. apply in_raster in Hw. apply map_ext_in. intros ch Hch'. f_equal. f_equal.
    rewrite flat_loop_app2 by auto. rewrite flat_loop_acc by auto. rewrite Nat.mul_0_l, Nat.add_0_l. reflexivity.
Qed.

(** * Zero padding *)

Lemma zero_padding_from_shape {V} (zero : V) p : forall d t, d + length p = length (tshape t) ->
  tshape (zero_padding_from zero d p t) =
  firstn d (tshape t) ++ map2 (fun q n => fst q + n + snd q) p (skipn d (tshape t)).
Proof.
  induction p as [|[b a] p IH]; intros d t H; cbn [zero_padding_from length] in *.
  - rewrite skipn_all2 by lia. cbn [map2]. rewrite app_nil_r, firstn_all2 by lia. reflexivity.
  - rewrite IH.
    2:{ cbn [concat2 constant_like tshape]. rewrite !upd_length. lia. }
    cbn [concat2 constant_like tshape]. rewrite !upd_upd.
    rewrite skipn_upd by lia.
    rewrite (skipn_nth (tshape t) d 0) by lia. cbn [map2 fst snd].
    rewrite upd_firstn_skipn by lia.
    rewrite !nth_upd_same by lia.
    rewrite firstn_app, firstn_length, Nat.min_l by lia. replace (S d - d) with 1 by lia.
    rewrite (firstn_all2 (n := S d)) by (rewrite firstn_length; lia). cbn [firstn]. rewrite <- app_assoc. reflexivity.
Qed.

Lemma zero_padding_from_val {V} (zero : V) p : forall d t l, d + length p = length (tshape t) -> length l = length (tshape t) ->
  in_shape (tshape (zero_padding_from zero d p t)) l ->
  tval (zero_padding_from zero d p t) l =
  if padding_outside (skipn d l) p (skipn d (tshape t)) then zero
  else tval t (firstn d l ++ map2 Nat.sub (skipn d l) (map fst p)).
Proof.
  induction p as [|[b a] p IH]; intros d t l H Hl Hin.
  - cbn [zero_padding_from map]. cbn [length] in H. rewrite !(skipn_all2 (n := d)) by lia. cbn [padding_outside map2].
    rewrite app_nil_r, firstn_all2 by lia. reflexivity.
  - cbn [zero_padding_from] in Hin |- *. cbn [length] in H.
    set (t1 := concat2 d (concat2 d (constant_like d b zero t) t) (constant_like d a zero t)) in *.
    assert (E1 : length (tshape t1) = length (tshape t)).
    { unfold t1. cbn [concat2 constant_like tshape]. rewrite !upd_length. auto. }
    assert (Hd : d < length (tshape t)) by lia.
    assert (En : nth d (tshape t1) 0 = b + nth d (tshape t) 0 + a).
    { unfold t1. cbn [concat2 constant_like tshape]. rewrite !nth_upd_eq, !Nat.eqb_refl, !upd_length.
      apply Nat.ltb_lt in Hd. rewrite Hd. reflexivity. }
    rewrite IH by (auto; lia).
    rewrite (skipn_nth l d 0) by lia. rewrite (skipn_nth (tshape t) d 0) by lia. cbn [padding_outside map fst map2].
    replace (skipn (S d) (tshape t1)) with (skipn (S d) (tshape t)).
    2:{ unfold t1. cbn [concat2 constant_like tshape]. rewrite !skipn_upd by lia. reflexivity. }
    set (rest := map2 Nat.sub (skipn (S d) l) (map fst p)).
    destruct (padding_outside (skipn (S d) l) p (skipn (S d) (tshape t))).
    { destruct ((nth d l 0 <? b) || (nth d (tshape t) 0 <=? nth d l 0 - b)); reflexivity. }
    rewrite (firstn_S l d 0) by lia. rewrite <- app_assoc. cbn [app].
    unfold t1. cbn [concat2 tval constant_like tshape].
    assert (Lf : length (firstn d l) = d) by (rewrite firstn_length; lia).
    rewrite !nth_upd_eq, !Nat.eqb_refl, !upd_length. apply Nat.ltb_lt in Hd. rewrite Hd. cbn [andb].
    rewrite app_nth2, Lf, Nat.sub_diag by lia. cbn [nth].
    destruct (Nat.ltb_spec (nth d l 0) b) as [L1|L1].
    { destruct (Nat.ltb_spec (nth d l 0) (b + nth d (tshape t) 0)); [reflexivity|lia]. }
    cbn [orb]. destruct (Nat.ltb_spec (nth d l 0) (b + nth d (tshape t) 0)) as [L2|L2].
    + destruct (Nat.leb_spec (nth d (tshape t) 0) (nth d l 0 - b)); [lia|]. f_equal.
      rewrite upd_firstn_skipn by (rewrite app_length; cbn [length]; lia).
      rewrite firstn_app, Lf, Nat.sub_diag. cbn [firstn]. rewrite app_nil_r, firstn_all2 by lia. f_equal. f_equal.
      rewrite skipn_app, Lf. replace (S d - d) with 1 by lia. rewrite skipn_all2 by lia. reflexivity.
    + destruct (Nat.leb_spec (nth d (tshape t) 0) (nth d l 0 - b)); [reflexivity|lia].
Qed.

Lemma padding_inside_shape p : forall sh l, length p = length sh -> length l = length sh ->
  padding_outside l p sh = false -> in_shape sh (map2 Nat.sub l (map fst p)).
Proof.
  induction p as [|[b a] p IH]; intros [|n sh] [|i l] Hp Hl H; cbn [length map fst map2 padding_outside] in *; try lia.
  - constructor.
  - destruct (Nat.ltb_spec i b); [discriminate|]. cbn [orb] in H. destruct (Nat.leb_spec n (i - b)); [discriminate|].
    constructor; [lia|]. apply IH; auto; lia.
Qed.

Lemma zero_padding_agrees {V} (zero : V) (p : zero_pad_arg) (t : tensor V) :
  length (zero_pad_tuples p) = length (tshape t) ->
  tshape (zero_padding zero (zero_pad_tuples p) t) =
    map2 (fun q n => fst q + n + snd q) (zero_pad_tuples p) (tshape t) /\
  agrees [t] (fun l => Ok (padding_dependencies p (tshape t) l)) (fun _ vs => padding_apply zero vs)
    (zero_padding zero (zero_pad_tuples p) t).
Proof.
  intros H. unfold zero_padding. split.
  - rewrite zero_padding_from_shape by auto. reflexivity.
  - intros l Hl. assert (Ll : length l = length (tshape t)).
    { rewrite (in_shape_length _ _ Hl), zero_padding_from_shape by auto. cbn [firstn app skipn]. rewrite map2_length. lia. }
    unfold padding_dependencies. rewrite zero_padding_from_val by auto. cbn [firstn app skipn].
    destruct (padding_outside l (zero_pad_tuples p) (tshape t)) eqn:E.
    + exists [], []. split; [reflexivity|]. split; [constructor|reflexivity].
    + exists [dep0 (map2 Nat.sub l (map fst (zero_pad_tuples p)))], [tval t (map2 Nat.sub l (map fst (zero_pad_tuples p)))]. split; [reflexivity|].
      split; [|reflexivity]. apply values_at_1. now apply padding_inside_shape.
Qed.

(** * Periodic padding *)

(** The clamped wrap-around list of indices. *)
Definition wrap_indices (n b a : nat) : list nat := (skipn (n - b) (range n) ++ range n) ++ firstn a (range n).

Lemma wrap_indices_length n b a : length (wrap_indices n b a) = Nat.min b n + n + Nat.min a n.
Proof. unfold wrap_indices. rewrite !app_length, skipn_length, firstn_length, range_length. lia. Qed.

Lemma nth_range n i : i < n -> nth i (range n) 0 = i.
Proof. intros H. unfold range. rewrite seq_nth; lia. Qed.

Lemma nth_skipn {A} (l : list A) k i d : nth i (skipn k l) d = nth (k + i) l d.
Proof. revert k; induction l as [|x l IH]; intros [|k]; cbn [skipn nth Nat.add]; auto. now destruct i. Qed.

Lemma nth_firstn {A} (l : list A) k i d : i < k -> nth i (firstn k l) d = nth i l d.
Proof. revert k i; induction l as [|x l IH]; intros [|k] [|i] H; cbn [firstn nth]; auto; try lia. apply IH. lia. Qed.

Lemma wrap_indices_nth n b a i : 0 < n -> i < Nat.min b n + n + Nat.min a n ->
  nth i (wrap_indices n b a) 0 = Z.to_nat ((Z.of_nat i - Z.of_nat (Nat.min b n)) mod Z.of_nat n).
Proof.
  intros Hn Hi. unfold wrap_indices. set (m := Nat.min b n) in *.
  assert (L1 : length (skipn (n - b) (range n)) = m) by (rewrite skipn_length, range_length; lia).
  destruct (Nat.lt_ge_cases i m) as [C1|C1].
  - rewrite app_nth1 by (rewrite app_length; lia). rewrite app_nth1 by lia. rewrite nth_skipn, nth_range by lia.
    replace (Z.of_nat i - Z.of_nat m)%Z with (Z.of_nat (n - m + i) + (-1) * Z.of_nat n)%Z by lia.
    rewrite Z_mod_plus_full, Z.mod_small by lia. lia.
  - destruct (Nat.lt_ge_cases i (m + n)) as [C2|C2].
    + rewrite app_nth1 by (rewrite app_length, range_length; lia). rewrite app_nth2 by lia. rewrite L1, nth_range by lia.
      rewrite Z.mod_small by lia. lia.
    + rewrite app_nth2 by (rewrite app_length, range_length; lia). rewrite app_length, L1, range_length.
      rewrite nth_firstn, nth_range by lia.
      replace (Z.of_nat i - Z.of_nat m)%Z with (Z.of_nat (i - (m + n)) + 1 * Z.of_nat n)%Z by lia.
      rewrite Z_mod_plus_full, Z.mod_small by lia. lia.
Qed.

(** One axis of the layer. *)
Lemma periodic_axis {V} (t : tensor V) d p : d < length (tshape t) -> 0 < nth d (tshape t) 0 ->
  let n := nth d (tshape t) 0 in
  let xs := unstack t d in
  exists t1, stack (((if 0 <? pad_before p then skipn (length xs - pad_before p) xs else []) ++ xs) ++
                    (if 0 <? pad_after p then firstn (pad_after p) xs else [])) d = Ok t1 /\
    tshape t1 = upd (tshape t) d (Nat.min (pad_before p) n + n + Nat.min (pad_after p) n) /\
    forall l, in_shape (tshape t1) l ->
      tval t1 l = tval t (upd l d (Z.to_nat ((Z.of_nat (nth d l 0) - Z.of_nat (Nat.min (pad_before p) n)) mod Z.of_nat n))).
Proof.
  intros Hd Hn n xs. set (b := pad_before p). set (a := pad_after p).
  set (f := fun i => {| tshape := remove_nth d (tshape t); tval := fun l => tval t (insert_nth d i l) |}).
  assert (Ex : xs = map f (range n)) by reflexivity.
  assert (El : ((if 0 <? b then skipn (length xs - b) xs else []) ++ xs) ++ (if 0 <? a then firstn a xs else []) =
               map f (wrap_indices n b a)).
  { unfold wrap_indices. rewrite !map_app, <- skipn_map, <- firstn_map, <- Ex. f_equal; [f_equal|].
    - destruct (Nat.ltb_spec 0 b).
      + f_equal. rewrite Ex, map_length, range_length. reflexivity.
      + rewrite skipn_all2; [reflexivity|]. rewrite Ex, map_length, range_length. lia.
    - destruct (Nat.ltb_spec 0 a); [reflexivity|]. replace a with 0 by lia. reflexivity. }
  rewrite El. pose proof (wrap_indices_length n b a) as WL.
  assert (Hsome : exists x r, map f (wrap_indices n b a) = f x :: r).
  { destruct (wrap_indices n b a) as [|x r]; cbn [length] in WL; [lia|]. cbn [map]. eauto. }
  destruct Hsome as (x & r & Es).
  eexists. split; [unfold stack; rewrite Es; reflexivity|]. cbn [tshape tval].
  split.
  - rewrite <- Es, map_length, WL. unfold f. cbn [tshape]. apply insert_remove. exact Hd.
  - intros l Hl. rewrite <- Es in *. rewrite map_length, WL in Hl. unfold f in Hl at 1. cbn [tshape] in Hl.
    rewrite insert_remove in Hl by exact Hd.
    apply in_shape_iff in Hl. destruct Hl as [Ll Hl]. rewrite upd_length in Ll, Hl.
    specialize (Hl d Hd). rewrite nth_upd_same in Hl by exact Hd.
    rewrite map_nth.
    rewrite (nth_indep _ x 0) by (rewrite WL; exact Hl). unfold f. cbn [tval].
    rewrite insert_remove by lia. rewrite wrap_indices_nth by auto. reflexivity.
Qed.

Lemma clamp_mod n b (i : Z) : 0 < n -> b <= n \/ b mod n = 0 ->
  ((i - Z.of_nat (Nat.min b n)) mod Z.of_nat n = (i - Z.of_nat b) mod Z.of_nat n)%Z.
Proof.
  intros Hn [H|H].
  - rewrite Nat.min_l by auto. reflexivity.
  - destruct (Nat.le_gt_cases b n) as [L|L]; [rewrite Nat.min_l by auto; reflexivity|].
    rewrite Nat.min_r by lia. apply Nat.mod_divide in H; [|lia]. destruct H as [q ->].
    replace (i - Z.of_nat (q * n))%Z with ((i - Z.of_nat n) + (1 - Z.of_nat q) * Z.of_nat n)%Z by lia.
    now rewrite Z_mod_plus_full.
Qed.

Lemma periodic_loc_in p : forall l sh, length l = length sh -> Forall2 pads_fit p sh -> in_shape sh (periodic_loc l p sh).
Proof.
  induction p as [|q p IH]; intros l sh Hl HF; inversion HF as [|? n ? s' Hq HF2]; subst; destruct l as [|i l]; cbn [length] in Hl; try lia;
    cbn [periodic_loc]; constructor.
  - destruct Hq. pose proof (Z.mod_pos_bound (Z.of_nat i - Z.of_nat (pad_before q)) (Z.of_nat n) ltac:(lia)). lia.
  - apply IH; auto.
Qed.

Lemma periodic_from {V} p : forall d (t : tensor V), d + length p = length (tshape t) ->
  Forall2 pads_fit p (skipn d (tshape t)) ->
  exists out, periodic_padding_from d p t = Ok out /\
    tshape out = firstn d (tshape t) ++
      map2 (fun q n => Nat.min (pad_before q) n + n + Nat.min (pad_after q) n) p (skipn d (tshape t)) /\
    forall l, in_shape (tshape out) l ->
      tval out l = tval t (firstn d l ++ periodic_loc (skipn d l) p (skipn d (tshape t))).
Proof.
  induction p as [|q p IH]; intros d t H HF; cbn [length] in H.
  - exists t. split; [reflexivity|]. rewrite skipn_all2 by lia. cbn [map2]. rewrite app_nil_r, firstn_all2 by lia.
    split; [reflexivity|]. intros l Hl. apply in_shape_length in Hl. rewrite skipn_all2 by lia. cbn [periodic_loc].
    rewrite app_nil_r, firstn_all2 by lia. reflexivity.
  - assert (Hd : d < length (tshape t)) by lia.
    rewrite (skipn_nth (tshape t) d 0) in HF |- * by lia. inversion HF as [|? ? ? ? Hq HF']; subst.
    destruct Hq as [Hn Hfit].
    destruct (periodic_axis t d q Hd Hn) as (t1 & E1 & S1 & V1).
    set (n := nth d (tshape t) 0) in *.
    assert (Hrest : exists t2, (match q with PInt 0 => periodic_padding_from (S d) p t
              | _ => do x <- stack (((if 0 <? pad_before q then skipn (length (unstack t d) - pad_before q) (unstack t d) else []) ++ unstack t d) ++
                    (if 0 <? pad_after q then firstn (pad_after q) (unstack t d) else [])) d; periodic_padding_from (S d) p x end)
            = periodic_padding_from (S d) p t2 /\
              tshape t2 = upd (tshape t) d (Nat.min (pad_before q) n + n + Nat.min (pad_after q) n) /\
              forall l, in_shape (tshape t2) l -> tval t2 l = tval t (upd l d (Z.to_nat ((Z.of_nat (nth d l 0) - Z.of_nat (pad_before q)) mod Z.of_nat n)))).
    { assert (Gen : exists t2, (do x <- stack (((if 0 <? pad_before q then skipn (length (unstack t d) - pad_before q) (unstack t d) else []) ++ unstack t d) ++
                    (if 0 <? pad_after q then firstn (pad_after q) (unstack t d) else [])) d; periodic_padding_from (S d) p x)
            = periodic_padding_from (S d) p t2 /\
              tshape t2 = upd (tshape t) d (Nat.min (pad_before q) n + n + Nat.min (pad_after q) n) /\
              forall l, in_shape (tshape t2) l -> tval t2 l = tval t (upd l d (Z.to_nat ((Z.of_nat (nth d l 0) - Z.of_nat (pad_before q)) mod Z.of_nat n)))).
      { exists t1. split; [rewrite E1; reflexivity|]. split; [exact S1|].
        intros l Hl. rewrite (V1 l Hl). rewrite clamp_mod by auto. reflexivity. }
      destruct q as [[|m]|b a]; [|exact Gen|exact Gen].
      exists t. split; [reflexivity|]. cbn [pad_before pad_after]. split.
      - rewrite Nat.min_0_l. cbn [Nat.add]. rewrite Nat.add_0_r. unfold n. now rewrite upd_same_value.
      - intros l Hl. apply in_shape_iff in Hl. destruct Hl as [Ll Hl]. specialize (Hl d Hd). fold n in Hl.
        rewrite Z.sub_0_r, Z.mod_small, Nat2Z.id by lia. now rewrite upd_same_value. }
    destruct Hrest as (t2 & E2 & S2 & V2).
    change (periodic_padding_from d (q :: p) t) with
      (match q with PInt 0 => periodic_padding_from (S d) p t
              | _ => do x <- stack (((if 0 <? pad_before q then skipn (length (unstack t d) - pad_before q) (unstack t d) else []) ++ unstack t d) ++
                    (if 0 <? pad_after q then firstn (pad_after q) (unstack t d) else [])) d; periodic_padding_from (S d) p x end).
    rewrite E2. clear E1 S1 V1 E2.
    assert (Sk : skipn (S d) (tshape t2) = skipn (S d) (tshape t)) by (rewrite S2, skipn_upd by lia; reflexivity).
    destruct (IH (S d) t2) as (out & E & So & Vo).
    { rewrite S2, upd_length. lia. }
    { rewrite Sk. exact HF'. }
    exists out. split; [exact E|]. rewrite Sk in So, Vo.
    assert (F2 : firstn (S d) (tshape t2) = firstn d (tshape t) ++ [Nat.min (pad_before q) n + n + Nat.min (pad_after q) n]).
    { rewrite S2, (firstn_S _ d 0) by (rewrite upd_length; lia). rewrite firstn_upd by lia. now rewrite nth_upd_same by lia. }
    split.
    + rewrite So, F2, <- app_assoc. cbn [map2 app]. reflexivity.
    + intros l Hl. rewrite (Vo l Hl).
      assert (Ll : length l = length (tshape t)).
      { rewrite (in_shape_length _ _ Hl), So, F2, !app_length, map2_length, firstn_length, skipn_length. cbn [length]. lia. }
      rewrite (skipn_nth l d 0) by lia. cbn [periodic_loc].
      rewrite (firstn_S l d 0) by lia. rewrite <- app_assoc. cbn [app].
      set (rest := periodic_loc (skipn (S d) l) p (skipn (S d) (tshape t))).
      assert (Lf : length (firstn d l) = d) by (rewrite firstn_length; lia).
      rewrite V2.
      * rewrite app_nth2, Lf, Nat.sub_diag by lia. cbn [nth]. f_equal.
        rewrite upd_firstn_skipn by (rewrite app_length; cbn [length]; lia).
        rewrite firstn_app, Lf, Nat.sub_diag. cbn [firstn]. rewrite app_nil_r, firstn_all2 by lia. f_equal. f_equal.
        rewrite skipn_app, Lf. replace (S d - d) with 1 by lia. rewrite skipn_all2 by lia. reflexivity.
      * (* in range for t2 *)
        assert (Hrest : in_shape (skipn (S d) (tshape t)) rest).
        { unfold rest. apply periodic_loc_in; [rewrite !skipn_length; lia|exact HF']. }
        pose proof Hl as Hl'. rewrite So, F2 in Hl'.
        replace (tshape t2) with (firstn (S d) (tshape t2) ++ skipn (S d) (tshape t2)) by apply firstn_skipn.
        rewrite Sk, F2. replace (firstn d l ++ nth d l 0 :: rest) with ((firstn d l ++ [nth d l 0]) ++ rest) by (now rewrite <- app_assoc).
        apply Forall2_app; [|exact Hrest].
        rewrite <- (firstn_S l d 0) by lia.
        apply in_shape_iff in Hl'. destruct Hl' as [A1 A2]. apply in_shape_iff.
        rewrite !app_length, !firstn_length. cbn [length]. split; [lia|].
        intros k Hk. rewrite nth_firstn by lia.
        specialize (A2 k). rewrite app_nth1 in A2 by (rewrite app_length, firstn_length; cbn [length]; lia).
        apply A2. rewrite !app_length, firstn_length. cbn [length]. lia.
Qed.

Lemma periodic_agrees {V} (p : list pad_entry) (t : tensor V) : Forall2 pads_fit p (tshape t) ->
  exists out, periodic_padding p t = Ok out /\
    tshape out = map2 (fun q n => Nat.min (pad_before q) n + n + Nat.min (pad_after q) n) p (tshape t) /\
    agrees [t] (fun l => Ok (periodic_dependencies p (tshape t) l)) (fun _ vs => first_value vs) out.
Proof.
  intros HF. assert (HL : length p = length (tshape t)) by (clear -HF; induction HF; cbn [length]; congruence).
  destruct (periodic_from p 0 t) as (out & E & S & VV); auto.
  exists out. split; [exact E|]. split; [exact S|]. cbn [firstn app skipn] in *.
  intros l Hl. eexists _, [_]. split; [reflexivity|]. split.
  - apply values_at_1. apply periodic_loc_in; auto. rewrite (in_shape_length _ _ Hl), S, map2_length. lia.
  - cbn [first_value]. now rewrite (VV l Hl).
Qed.

Lemma periodic_large n b a : 0 < n -> n < b -> b mod n <> 0 ->
  exists out : tensor loc, periodic_padding [PPair b a] {| tshape := [n]; tval := fun l => l |} = Ok out /\
    ~ agrees [{| tshape := [n]; tval := fun l => l |}] (fun l => Ok (periodic_dependencies [PPair b a] [n] l))
        (fun _ vs => first_value vs) out.
Proof.
  intros Hn Hb Hm. set (t := {| tshape := [n]; tval := fun l : loc => l |}).
  destruct (periodic_axis t 0 (PPair b a)) as (t1 & E1 & S1 & V1); [cbn; lia|exact Hn|].
  exists t1. split.
  { unfold periodic_padding. cbn [periodic_padding_from]. rewrite E1. reflexivity. }
  intros H. cbn [tshape nth pad_before pad_after upd] in S1, V1. unfold t in S1, V1. cbn [tshape nth upd tval] in S1, V1.
  assert (Hin : in_shape (tshape t1) [0]) by (rewrite S1; constructor; [lia|constructor]).
  destruct (H [0] Hin) as (ds & vs & D & Hv & A). injection D as <-.
  inversion Hv as [|? v ? ? (t' & N & _ & Ev) Hv']; subst. inversion Hv'; subst. cbn in N. injection N as <-.
  cbn [first_value] in A. injection A as A. rewrite (V1 [0] Hin) in A. cbn [tval spatial_location dep0 periodic_loc nth upd pad_before] in A.
  injection A as A. rewrite Nat.min_r in A by lia.
  pose proof (Z.mod_pos_bound (Z.of_nat 0 - Z.of_nat b) (Z.of_nat n) ltac:(lia)).
  pose proof (Z.mod_pos_bound (Z.of_nat 0 - Z.of_nat n) (Z.of_nat n) ltac:(lia)).
  assert (A' : ((Z.of_nat 0 - Z.of_nat b) mod Z.of_nat n = (Z.of_nat 0 - Z.of_nat n) mod Z.of_nat n)%Z) by lia.
  replace (Z.of_nat 0 - Z.of_nat n)%Z with (0 + (-1) * Z.of_nat n)%Z in A' by lia.
  rewrite Z_mod_plus_full, Z.mod_0_l in A' by lia.
  replace (Z.of_nat 0 - Z.of_nat b)%Z with (- Z.of_nat b)%Z in A' by lia.
  apply Z.mod_opp_l_z in A' || (apply Z_mod_zero_opp_full in A'); try lia.
  rewrite ?Z.opp_involutive in A'. apply Hm. apply Nat2Z.inj. rewrite Nat2Z.inj_mod. exact A'.
Qed.

(** * Shift *)

Lemma shift_agrees {V} (zero : V) d (t : tensor V) : d < length (tshape t) -> 0 < nth d (tshape t) 0 ->
  tshape (shift zero d t) = tshape t /\
  agrees [t] (shift_dependencies d) (shift_apply zero d) (shift zero d t).
Proof.
  intros Hd Hn.
  assert (Sh : tshape (shift zero d t) = tshape t).
  { unfold shift. cbn [concat2 constant_like take_first tshape]. rewrite !upd_upd, !nth_upd_same by auto.
    replace (1 + (nth d (tshape t) 0 - 1)) with (nth d (tshape t) 0) by lia. apply upd_same_value. }
  split; [exact Sh|]. intros l Hl. rewrite Sh in Hl. pose proof (in_shape_length _ _ Hl) as Ll.
  unfold shift_dependencies, shift_apply. rewrite (nth_error_nth' l 0) by lia.
  unfold shift. cbn [concat2 constant_like take_first tshape tval]. rewrite !upd_upd, nth_upd_same by auto.
  destruct (nth d l 0) as [|i] eqn:E.
  - eexists _, []. split; [reflexivity|]. split; [constructor|reflexivity].
  - assert (EL : firstn d l ++ [i] ++ skipn (S d) l = upd l d i) by (rewrite upd_firstn_skipn by lia; reflexivity).
    rewrite EL. eexists _, [_]. split; [reflexivity|]. split.
    + apply values_at_1. rewrite <- (upd_same_value (tshape t) d 0). apply in_shape_upd; auto.
      apply in_shape_iff in Hl. destruct Hl as [_ Hl]. specialize (Hl d Hd). lia.
    + cbn [first_value]. replace (Datatypes.S i <? 1) with false by reflexivity. replace (Datatypes.S i - 1) with i by lia. reflexivity.
Qed.

(** * Concatenation *)

Lemma concat_from_shape {V} d (ts : list (tensor V)) : forall t, d < length (tshape t) ->
  Forall (fun u => length (tshape u) = length (tshape t)) ts ->
  tshape (concat_from d t ts) =
  upd (tshape t) d (fold_right Nat.add 0 (map (fun u => nth d (tshape u) 0) (t :: ts))).
Proof.
  induction ts as [|u ts IH]; intros t Hd HF; cbn [concat_from].
  - cbn [map fold_right]. rewrite Nat.add_0_r. now rewrite upd_same_value.
  - inversion HF as [|? ? Hu HF']; subst. cbn [concat2 tshape]. rewrite IH.
    + rewrite nth_upd_same by lia. reflexivity.
    + lia.
    + rewrite Hu. exact HF'.
Qed.

Lemma concat_spatial_agrees {V} d : forall (ts : list (tensor V)) t i, d < length (tshape t) ->
  Forall (fun u => same_except d (tshape t) (tshape u)) ts ->
  forall l, in_shape (tshape (concat_from d t ts)) l ->
  exists k l', concat_spatial_from i (Z.of_nat d + 1) (map (fun u => nth d (tshape u) 0) (t :: ts)) l =
                 Ok [{| input_index := i + k; spatial_location := l' |}] /\
    exists u, nth_error (t :: ts) k = Some u /\ in_shape (tshape u) l' /\ tval u l' = tval (concat_from d t ts) l.
Proof.
  assert (PY : forall l : loc, d < length l -> py_index (length l) (Z.of_nat d + 1 - 1) = Ok d).
  { intros l H. unfold py_index. replace (Z.of_nat d + 1 - 1)%Z with (Z.of_nat d) by lia.
    destruct (Z.leb_spec 0 (Z.of_nat d)); [|lia]. destruct (Z.ltb_spec (Z.of_nat d) (Z.of_nat (length l))); [|lia].
    cbn [andb]. f_equal. lia. }
  induction ts as [|u ts IH]; intros t i Hd HF l Hl.
  - cbn [concat_from] in Hl |- *. cbn [map concat_spatial_from]. pose proof (in_shape_length _ _ Hl) as Ll.
    rewrite PY by lia. cbn [bind]. pose proof Hl as Hl2. apply in_shape_iff in Hl2. destruct Hl2 as [_ Hl2].
    specialize (Hl2 d Hd). apply Nat.ltb_lt in Hl2. rewrite Hl2. exists 0, l. rewrite Nat.add_0_r. split; [reflexivity|].
    exists t. split; [reflexivity|]. split; [exact Hl|reflexivity].
  - inversion HF as [|? ? Hu HF']; subst.
    assert (HF2 : Forall (fun v => length (tshape v) = length (tshape t)) (u :: ts)).
    { apply Forall_forall. intros v Hv. rewrite Forall_forall in HF. destruct (HF v Hv). auto. }
    rewrite concat_from_shape in Hl by auto. pose proof (in_shape_length _ _ Hl) as Ll. rewrite upd_length in Ll.
    apply in_shape_iff in Hl. destruct Hl as [_ Hl]. rewrite upd_length in Hl.
    change (map (fun u0 => nth d (tshape u0) 0) (t :: u :: ts)) with (nth d (tshape t) 0 :: map (fun u0 => nth d (tshape u0) 0) (u :: ts)).
    cbn [concat_spatial_from]. rewrite PY by lia. cbn [bind concat_from concat2 tval].
    destruct (Nat.ltb_spec (nth d l 0) (nth d (tshape t) 0)) as [L|L].
    + exists 0, l. rewrite Nat.add_0_r. split; [reflexivity|]. exists t. split; [reflexivity|]. split; [|reflexivity].
      apply in_shape_iff. split; [auto|]. intros k Hk. destruct (Nat.eq_dec k d) as [->|N]; [auto|].
      specialize (Hl k Hk). rewrite nth_upd_other in Hl by auto. exact Hl.
    + assert (Lu : length (tshape u) = length (tshape t)) by (destruct Hu; auto).
      destruct (IH u (S i)) with (l := upd l d (nth d l 0 - nth d (tshape t) 0)) as (k & l' & E & v & Nv & Iv & Tv).
      * lia.
      * apply Forall_forall. intros v Hv. rewrite Forall_forall in HF'. destruct (HF' v Hv) as [A B]. destruct Hu as [A' B'].
        split; [lia|]. intros k Hk. rewrite <- B' by auto. apply B; auto.
      * rewrite concat_from_shape; [|lia|inversion HF2; subst; rewrite Lu; auto].
        apply in_shape_iff. rewrite !upd_length. split; [lia|]. intros k Hk. specialize (Hl k ltac:(lia)).
        destruct (Nat.eq_dec k d) as [->|N].
        -- rewrite nth_upd_same in Hl by lia. rewrite !nth_upd_same by lia.
           cbn [map fold_right] in Hl |- *. lia.
        -- rewrite nth_upd_other in Hl by auto. rewrite !nth_upd_other by auto. destruct Hu as [_ B']. rewrite <- B'; auto.
      * exists (S k), l'. rewrite E. split; [f_equal; f_equal; f_equal; lia|]. exists v. split; [exact Nv|]. split; [exact Iv|exact Tv].
Qed.

Lemma py_index_nonneg len i : i < len -> py_index len (Z.of_nat i) = Ok i.
Proof.
  intros H. unfold py_index. destruct (Z.leb_spec 0 (Z.of_nat i)); [|lia].
  destruct (Z.ltb_spec (Z.of_nat i) (Z.of_nat len)); [|lia]. cbn [andb]. f_equal. lia.
Qed.

Lemma py_index_high len i : (Z.of_nat len <= i)%Z -> py_index len i = Err IndexError.
Proof.
  intros H. unfold py_index. destruct (Z.ltb_spec i (Z.of_nat len)); [lia|]. rewrite andb_false_r.
  destruct (Z.ltb_spec i 0); [lia|]. now rewrite andb_false_r.
Qed.

Lemma py_index_low len i : (i < - Z.of_nat len)%Z -> py_index len i = Err IndexError.
Proof.
  intros H. unfold py_index. destruct (Z.leb_spec 0 i); [lia|]. cbn [andb].
  destruct (Z.leb_spec (- Z.of_nat len) i); [lia|]. reflexivity.
Qed.

Lemma concat_sizes_spatial d : forall shapes features, length features = length shapes ->
  Forall (fun s => d < length s) shapes ->
  concat_sizes (Z.of_nat d + 1) shapes features = Ok (map (fun s => nth d s 0) shapes).
Proof.
  unfold concat_sizes. induction shapes as [|s ss IH]; intros [|f fs] HL HF; cbn [length] in HL; try lia; auto.
  inversion HF; subst. replace (Z.of_nat d + 1)%Z with (Z.of_nat (S d)) in * by lia.
  rewrite py_index_nonneg by (cbn [length]; rewrite app_length; lia). cbn [bind].
  rewrite IH by (auto; lia). cbn [bind map nth]. rewrite app_nth1 by auto. reflexivity.
Qed.

Lemma concat_layer_agrees {T} (d : nat) (ts : list (tensor (list T))) (t : tensor (list T)) (features : list nat) :
  d < length (tshape t) -> length features = length (t :: ts) ->
  Forall (fun u => same_except d (tshape t) (tshape u)) ts ->
  exists out, tf_concat d (t :: ts) = Ok out /\
    let axis := (Z.of_nat d + 1)%Z in
    agrees (t :: ts) (concat_dependencies axis (map tshape (t :: ts)) features)
      (fun _ vs => concat_apply axis (2 + length (tshape t)) vs) out.
Proof.
  intros Hd HL HF. exists (concat_from d t ts). split; [reflexivity|]. intros axis l Hl.
  assert (Hsp : concat_on_spatial_axis axis (2 + length (tshape t)) = true).
  { unfold concat_on_spatial_axis, axis. destruct (Z.eqb_spec (Z.of_nat d + 1) (-1)); [lia|].
    destruct (Z.eqb_spec (Z.of_nat d + 1) 0); [lia|].
    destruct (Z.eqb_spec (Z.of_nat d + 1) (Z.of_nat (2 + length (tshape t)) - 1)); [lia|]. reflexivity. }
  unfold concat_dependencies, axis. rewrite concat_sizes_spatial.
  - fold axis. cbn [bind]. change (hd [] (map tshape (t :: ts))) with (tshape t). rewrite Hsp, map_map.
    destruct (concat_spatial_agrees d ts t 0 Hd HF l Hl) as (k & l' & E & u & Nu & Iu & Tu).
    unfold axis. rewrite E. eexists _, [tval u l']. split; [reflexivity|]. split.
    + constructor; [|constructor]. exists u. auto.
    + unfold concat_apply. fold axis. rewrite Hsp. cbn [first_value]. now rewrite Tu.
  - now rewrite map_length.
  - cbn [map]. constructor; [auto|]. apply Forall_forall. intros s Hs. apply in_map_iff in Hs. destruct Hs as (u & <- & Hu).
    rewrite Forall_forall in HF. destruct (HF u Hu). lia.
Qed.

Lemma range_seq_values {V} (ts : list (tensor V)) l : Forall (fun u => in_shape (tshape u) l) ts ->
  values_at ts (map (fun i => {| input_index := i; spatial_location := l |}) (range (length ts))) (map (fun u => tval u l) ts).
Proof.
  intros HF. unfold values_at, range.
  assert (G : forall pre, Forall2 (fun d v => exists t, nth_error (pre ++ ts) (input_index d) = Some t /\
             in_shape (tshape t) (spatial_location d) /\ v = tval t (spatial_location d))
             (map (fun i => {| input_index := i; spatial_location := l |}) (seq (length pre) (length ts))) (map (fun u => tval u l) ts)).
  { induction HF as [|u ts Hu HF IH]; intros pre; cbn [length seq map]; constructor.
    - cbn [input_index spatial_location]. exists u. split; [|auto]. rewrite nth_error_app2, Nat.sub_diag by lia. reflexivity.
    - specialize (IH (pre ++ [u])). rewrite app_length in IH. cbn [length] in IH. rewrite Nat.add_1_r in IH.
      rewrite <- app_assoc in IH. exact IH. }
  exact (G []).
Qed.

Lemma concat_features_agrees {T} (ts : list (tensor (list T))) (t : tensor (list T)) (features : list nat) :
  length features = length (t :: ts) -> Forall (fun u => tshape u = tshape t) ts ->
  agrees (t :: ts) (concat_dependencies (-1) (map tshape (t :: ts)) features)
      (fun _ vs => concat_apply (-1) (2 + length (tshape t)) vs)
      {| tshape := tshape t; tval := fun l => concat (map (fun u => tval u l) (t :: ts)) |}.
Proof.
  intros HL HF l Hl. cbn [tshape tval] in *.
  assert (Hsz : exists sz, concat_sizes (-1) (map tshape (t :: ts)) features = Ok sz).
  { clear Hl. revert HL. generalize (t :: ts). unfold concat_sizes. intros us. revert features.
    induction us as [|u us IH]; intros [|f fs] HL; cbn [length] in HL; try lia; [eexists; reflexivity|].
    cbn [map]. destruct (IH fs) as (sz & E); [lia|].
    assert (P : py_index (length (0 :: tshape u ++ [f])) (-1) = Ok (S (length (tshape u)))).
    { unfold py_index. cbn [length]. rewrite app_length. cbn [length].
      destruct (Z.leb_spec 0 (-1)); [lia|]. cbn [andb].
      destruct (Z.leb_spec (- Z.of_nat (S (length (tshape u) + 1))) (-1)); [|lia]. cbn [andb Z.ltb Z.compare]. f_equal. lia. }
    rewrite P. cbn [bind]. rewrite E. cbn [bind]. eauto. }
  destruct Hsz as (sz & Hsz). unfold concat_dependencies. rewrite Hsz. cbn [bind].
  replace (concat_on_spatial_axis (-1) _) with false by reflexivity.
  eexists _, (map (fun u => tval u l) (t :: ts)). split; [reflexivity|]. split.
  - rewrite map_length. apply range_seq_values. constructor; [exact Hl|]. eapply Forall_impl; [|exact HF].
    intros u ->. exact Hl.
  - reflexivity.
Qed.

(** A negative spatial axis. *)
Lemma concat_negative {T} (k : nat) (shapes : list (list nat)) (features : list nat) (l : loc) (vs : list (list T)) r :
  2 <= k < 2 + length (hd [] shapes) -> length (hd [] shapes) <= k -> length l = length (hd [] shapes) ->
  concat_dependencies (- Z.of_nat k) shapes features l = Ok r -> False.
Proof.
  intros Hk Hk2 Hl. unfold concat_dependencies. destruct (concat_sizes _ shapes features) as [sz|] eqn:E; cbn [bind]; [|discriminate].
  assert (Hs : concat_on_spatial_axis (- Z.of_nat k) (2 + length (hd [] shapes)) = true).
  { unfold concat_on_spatial_axis. destruct (Z.eqb_spec (- Z.of_nat k) (-1)); [lia|].
    destruct (Z.eqb_spec (- Z.of_nat k) 0); [lia|].
    destruct (Z.eqb_spec (- Z.of_nat k) (Z.of_nat (2 + length (hd [] shapes)) - 1)); [lia|]. reflexivity. }
  rewrite Hs. destruct sz as [|s sz]; cbn [concat_spatial_from]; [discriminate|].
  rewrite py_index_low by lia. discriminate.
Qed.

(** * Broadcast *)

Lemma broadcast_ok out : forall s l, broadcasts out s -> in_shape out l ->
  exists b, broadcast_spatial_location s l = Ok b /\ b = broadcast_loc s l /\ in_shape s b.
Proof.
  induction out as [|n out IH]; intros s l HB Hl; inversion HB as [|? k ? s' Hk HB']; subst; inversion Hl as [|i ? l' ? Hi Hl']; subst.
  - exists []. repeat split; constructor.
  - destruct (IH s' l' HB' Hl') as (b & E & -> & I). cbn [broadcast_spatial_location]. rewrite E. cbn [bind].
    unfold broadcast_loc. cbn [map2]. fold (broadcast_loc s' l').
    destruct (Nat.eqb_spec k 1) as [->|N].
    + destruct (Nat.ltb_spec i 1) as [L|L].
      * exists (0 :: broadcast_loc s' l'). replace i with 0 by lia. split; [reflexivity|]. split; [reflexivity|constructor; auto].
      * exists (0 :: broadcast_loc s' l'). split; [reflexivity|]. split; [reflexivity|constructor; auto].
    + destruct Hk as [->|Hk]; [|lia]. apply Nat.ltb_lt in Hi as Hi'. rewrite Hi'. exists (i :: broadcast_loc s' l').
      split; [reflexivity|]. split; [reflexivity|constructor; auto].
Qed.

Lemma merge_agrees {V W} (f : list V -> W) (ts : list (tensor V)) (out : list nat) :
  Forall (fun t => broadcasts out (tshape t)) ts ->
  agrees ts (one_to_one_dependencies (map tshape ts)) (fun _ vs => Ok (f vs)) (merge f ts out).
Proof.
  intros HF l Hl. cbn [merge tshape tval] in *. unfold one_to_one_dependencies.
  assert (G : forall pre, exists ds, one_to_one_from (length pre) (map tshape ts) l = Ok ds /\
     Forall2 (fun d v => exists t, nth_error (pre ++ ts) (input_index d) = Some t /\
             in_shape (tshape t) (spatial_location d) /\ v = tval t (spatial_location d)) ds
             (map (fun t => tval t (broadcast_loc (tshape t) l)) ts)).
  { induction HF as [|t ts Ht HF IH]; intros pre; cbn [map one_to_one_from].
    - exists []. split; [reflexivity|constructor].
    - destruct (broadcast_ok out (tshape t) l Ht Hl) as (b & E & -> & I). rewrite E. cbn [bind].
      destruct (IH (pre ++ [t])) as (ds & E2 & F2). rewrite app_length in E2. cbn [length] in E2. rewrite Nat.add_1_r in E2.
      rewrite E2. cbn [bind]. eexists. split; [reflexivity|]. constructor.
      + cbn [input_index spatial_location]. exists t. split; [|auto]. rewrite nth_error_app2, Nat.sub_diag by lia. reflexivity.
      + rewrite <- app_assoc in F2. exact F2. }
  destruct (G []) as (ds & E & F). exists ds, (map (fun t => tval t (broadcast_loc (tshape t) l)) ts).
  split; [exact E|]. split; [exact F|reflexivity].
Qed.

(** An input with fewer spatial axes than the output. *)
Lemma broadcast_short s : forall l, length s < length l -> broadcast_spatial_location s l = Err IndexError.
Proof.
  induction s as [|n s IH]; intros [|i l] H; cbn [length] in H; try lia; [reflexivity|]. cbn [broadcast_spatial_location].
  rewrite IH by lia. reflexivity.
Qed.
Lemma broadcast_error s : forall l e, broadcast_spatial_location s l = Err e -> e = IndexError.
Proof.
  induction s as [|n s IH]; intros [|i l] e; cbn [broadcast_spatial_location]; try discriminate; [congruence|].
  destruct (broadcast_spatial_location s l) eqn:E; cbn [bind]; [discriminate|]. intros [= <-]. eauto.
Qed.
Lemma lower_rank_raises (sizes : list (list nat)) (s : list nat) (l : loc) : In s sizes -> length s < length l ->
  one_to_one_dependencies sizes l = Err IndexError.
Proof.
  intros H HL. unfold one_to_one_dependencies. generalize 0. induction sizes as [|a r IH]; intros i; [destruct H|]. cbn [one_to_one_from].
  destruct (broadcast_spatial_location a l) as [b|e] eqn:E; cbn [bind].
  - destruct H as [->|H]; [rewrite broadcast_short in E by exact HL; discriminate|]. rewrite IH by exact H. reflexivity.
  - f_equal. eapply broadcast_error; eauto.
Qed.

(** Layers that add the feature axis themselves (one-hot): the stored size lacks a dimension. *)
Lemma one_hot_index_error (n : nat) (rest : list nat) (l : loc) : length l = S (length rest) -> in_shape (n :: rest) l ->
  one_to_one_dependencies [stored_input_size false (n :: rest)] l = Err IndexError.
Proof.
  intros HL Hl. unfold one_to_one_dependencies, stored_input_size. cbn [one_to_one_from].
  assert (G : forall sh l, in_shape sh l -> sh <> [] -> broadcast_spatial_location (removelast sh) l = Err IndexError).
  { induction sh as [|a sh IH]; intros l0 H N; [congruence|]. inversion H; subst.
    destruct sh as [|b sh]; [reflexivity|]. change (removelast (a :: b :: sh)) with (a :: removelast (b :: sh)).
    cbn [broadcast_spatial_location]. rewrite IH by (auto; discriminate). reflexivity. }
  rewrite G by (auto; discriminate). reflexivity.
Qed.

Lemma expand_input_dim_ok (shape : list nat) (l : loc) : in_shape shape l ->
  one_to_one_dependencies [stored_input_size true shape] l = Ok [dep0 l].
Proof.
  intros H. unfold one_to_one_dependencies, stored_input_size. rewrite removelast_last. cbn [one_to_one_from].
  destruct (broadcast_ok shape shape l) as (b & E & Eb & I); auto.
  { unfold broadcasts. clear. induction shape; constructor; auto. }
  rewrite E. cbn [bind]. f_equal. f_equal. unfold dep0. f_equal. rewrite Eb. clear -H.
  induction H as [|i n l sh Hi H IH]; unfold broadcast_loc in *; cbn [map2]; auto. rewrite IH. f_equal.
  destruct (Nat.eqb_spec n 1); lia.
Qed.

(** * Gather *)

Lemma gather_layer_agrees {V} (d : nat) (indices : list nat) (t out : tensor V) : d < length (tshape t) ->
  gather_axis d indices t = Ok out ->
  agrees [t] (gather_dependencies (Z.of_nat d + 1) indices (2 + length (tshape t))) (fun _ vs => first_value vs) out.
Proof.
  intros Hd. unfold gather_axis. destruct (forallb _ indices) eqn:F; [|discriminate]. intros H. injection H as <-.
  intros l Hl. cbn [tshape tval] in *. unfold gather_dependencies, features_gathering, gather_topology_axis.
  destruct (Z.ltb_spec (Z.of_nat d + 1) 0); [lia|].
  destruct (Z.eqb_spec (Z.of_nat d + 1) (Z.of_nat (2 + length (tshape t)) - 1)); [lia|].
  pose proof (in_shape_length _ _ Hl) as Ll. rewrite upd_length in Ll.
  replace (Z.of_nat d + 1 - 1)%Z with (Z.of_nat d) by lia. rewrite py_index_nonneg by lia. cbn [bind].
  assert (Hi : nth d l 0 < length indices).
  { apply in_shape_iff in Hl. destruct Hl as [_ Hl]. rewrite upd_length in Hl. specialize (Hl d Hd).
    now rewrite nth_upd_same in Hl. }
  rewrite (nth_error_nth' indices 0) by exact Hi. eexists _, [_]. split; [reflexivity|]. split; [|reflexivity].
  apply values_at_1. rewrite forallb_forall in F.
  apply in_shape_iff in Hl. destruct Hl as [_ Hl]. rewrite upd_length in Hl.
  apply in_shape_iff. rewrite upd_length. split; [auto|]. intros k Hk. rewrite nth_upd_eq.
  destruct (Nat.eqb_spec k d) as [->|N].
  - destruct (Nat.ltb_spec d (length l)); [|lia]. cbn [andb]. apply Nat.ltb_lt, F, nth_In, Hi.
  - cbn [andb]. specialize (Hl k Hk). now rewrite nth_upd_other in Hl by auto.
Qed.

Lemma gather_negative (axis : Z) indices rank l : (axis < 0)%Z -> length l + 2 = rank ->
  gather_dependencies axis indices rank l = Err IndexError.
Proof.
  intros Ha Hr. unfold gather_dependencies, features_gathering, gather_topology_axis.
  destruct (Z.ltb_spec axis 0); [|lia]. destruct (Z.eqb_spec (Z.of_nat rank - axis) (Z.of_nat rank - 1)); [lia|].
  rewrite py_index_high by lia. reflexivity.
Qed.

Lemma gather_features_fails {T} (zero : T) indices rank value values : 3 <= rank ->
  gather_apply zero (Z.of_nat rank - 1) indices rank (value :: values) = Err ValueError.
Proof.
  intros Hr. unfold gather_apply, features_gathering, gather_topology_axis.
  destruct (Z.ltb_spec (Z.of_nat rank - 1) 0); [lia|]. rewrite Z.eqb_refl.
  cbn [first_value bind]. destruct (Z.eqb_spec (Z.of_nat rank - 1) 1); [lia|reflexivity].
Qed.

(** * Reshape *)

Lemma volume_cons n sh : volume (n :: sh) = n * volume sh.
Proof. reflexivity. Qed.

Lemma volume_app a b : volume (a ++ b) = volume a * volume b.
Proof. induction a as [|n a IH]; [unfold volume; cbn [fold_right app]; lia|]. cbn [app]. rewrite !volume_cons, IH. lia. Qed.

Lemma unravel_in sh : forall k, k < volume sh -> in_shape sh (unravel sh k).
Proof.
  induction sh as [|n sh IH]; intros k H; cbn [unravel]; constructor; rewrite volume_cons in H; fold (volume sh).
  - apply Nat.div_lt_upper_bound; [intros E; rewrite E in H; lia|lia].
  - apply IH. apply Nat.mod_upper_bound. intros E. rewrite E in H. lia.
Qed.

Lemma from_flat_app k : forall r1 r2, Forall (fun n => 0 < n) r1 ->
  from_flat_rev k (r1 ++ r2) = from_flat_rev k r1 ++ from_flat_rev (k / Z.of_nat (volume r1)) r2.
Proof.
  intros r1. revert k. induction r1 as [|n r1 IH]; intros k r2 HF.
  - cbn [app from_flat_rev]. unfold volume. cbn [fold_right]. now rewrite Z.div_1_r.
  - inversion HF as [|? ? Hn HF']; subst. cbn [app from_flat_rev]. rewrite IH by auto. f_equal. f_equal. f_equal.
    rewrite volume_cons, Nat2Z.inj_mul. rewrite Z.div_div; [reflexivity|lia|].
    assert (0 < volume r1); [|lia]. clear -HF'. induction HF'; unfold volume in *; cbn [fold_right]; lia.
Qed.

Lemma volume_rev sh : volume (rev sh) = volume sh.
Proof. induction sh as [|n sh IH]; [reflexivity|]. cbn [rev]. rewrite volume_app, IH, volume_cons. unfold volume; cbn [fold_right]. lia. Qed.

Lemma volume_pos_all sh : 0 < volume sh -> Forall (fun n => 0 < n) sh.
Proof.
  induction sh as [|n sh IH]; intros H; constructor; rewrite volume_cons in H; [nia|apply IH; nia].
Qed.

Lemma from_flat_rev_mod : forall r k m, Forall (fun n => 0 < n) r -> (0 < m)%Z ->
  from_flat_rev (k mod (Z.of_nat (volume r) * m)) r = from_flat_rev k r.
Proof.
  induction r as [|n r IH]; intros k m HF Hm; [reflexivity|]. inversion HF as [|? ? Hn HF']; subst.
  assert (Hv : 0 < volume r) by (clear -HF'; induction HF'; unfold volume in *; cbn [fold_right]; lia).
  cbn [from_flat_rev]. rewrite volume_cons, Nat2Z.inj_mul, <- Z.mul_assoc.
  rewrite Z.rem_mul_r by nia. f_equal.
  - rewrite Z.mul_comm, Z_mod_plus_full. apply Z.mod_mod. lia.
  - rewrite Z.mul_comm, Z.div_add by lia. rewrite (Z.div_small (k mod Z.of_nat n)) by (apply Z.mod_pos_bound; lia).
    cbn [Z.add]. apply IH; auto.
Qed.

Lemma from_flat_unravel sh : forall k, k < volume sh ->
  from_flat_index_to_spatial_location (Z.of_nat k) sh = unravel sh k.
Proof.
  unfold from_flat_index_to_spatial_location. induction sh as [|n sh IH]; intros k H; [reflexivity|].
  rewrite volume_cons in H. pose proof (volume_pos_all sh ltac:(nia)) as HP.
  cbn [rev unravel]. fold (volume sh). rewrite from_flat_app by (apply Forall_rev; auto).
  rewrite rev_app_distr. cbn [from_flat_rev rev app map]. rewrite volume_rev. f_equal.
  - rewrite Z.mod_small; rewrite <- ?Nat2Z.inj_div; [lia|]. split; [lia|].
    apply inj_lt. apply Nat.div_lt_upper_bound; lia.
  - rewrite <- IH by (apply Nat.mod_upper_bound; lia). f_equal. f_equal.
    rewrite Nat2Z.inj_mod. rewrite <- (from_flat_rev_mod (rev sh) (Z.of_nat k) 1) by (try lia; apply Forall_rev; auto).
    rewrite volume_rev, Z.mul_1_r. reflexivity.
Qed.

Lemma to_flat_loop sh : forall l acc r, length l = length sh ->
  to_flat_spatial_location l (map Z.of_nat sh ++ r) (Z.of_nat acc) = Z.of_nat (flat_loop l sh acc).
Proof.
  induction sh as [|n sh IH]; intros [|i l] acc r H; cbn [length] in H; try lia; cbn [map app to_flat_spatial_location flat_loop].
  - reflexivity.
  - rewrite <- (IH l _ r) by lia. f_equal. lia.
Qed.

Lemma existsb_of_nat l : existsb (Z.eqb (-1)) (map Z.of_nat l) = false.
Proof. induction l as [|n l IH]; cbn [map existsb]; auto. destruct (Z.eqb_spec (-1) (Z.of_nat n)); [lia|]. exact IH. Qed.

Lemma last_map_of_nat l d : l <> [] -> last (map Z.of_nat l) (Z.of_nat d) = Z.of_nat (last l d).
Proof. induction l as [|n l IH]; intros H; [congruence|]. destruct l as [|m l]; [reflexivity|]. apply IH. discriminate. Qed.

Lemma last_snoc {A} (l : list A) x d : last (l ++ [x]) d = x.
Proof. apply last_last. Qed.

Lemma removelast_snoc {A} (l : list A) (x : A) : removelast (l ++ [x]) = l.
Proof. apply removelast_last. Qed.

Lemma reshape_agrees {V} (t : tensor V) (new : list nat) (f : nat) : volume new = volume (tshape t) ->
  agrees [t] (reshape_dependencies (tshape t ++ [f]) (map Z.of_nat (new ++ [f]))) (fun _ vs => first_value vs) (reshape new t).
Proof.
  intros HV l Hl. cbn [reshape tshape tval] in *. unfold reshape_dependencies, reshape_target.
  rewrite existsb_of_nat. cbn [bind]. rewrite map_app. cbn [map]. rewrite !last_snoc, Z.eqb_refl. cbn [bind].
  rewrite !removelast_snoc. pose proof (in_shape_length _ _ Hl) as Ll.
  pose proof (to_flat_loop new l 0 [] Ll) as E. rewrite app_nil_r in E. change (Z.of_nat 0) with 0%Z in E. rewrite E.
  assert (K : flat_loop l new 0 < volume (tshape t)).
  { rewrite flat_loop_acc by auto. rewrite <- HV. cbn [Nat.mul Nat.add]. now apply row_major_lt. }
  rewrite from_flat_unravel by exact K. eexists _, [_]. split; [reflexivity|]. split; [|reflexivity].
  apply values_at_1. now apply unravel_in.
Qed.

(** A leading -1 works. *)
Lemma reshape_leading_unknown {V} (t : tensor V) (n : nat) (new : list nat) (f : nat) : 0 < f -> 0 < volume new ->
  volume (n :: new) = volume (tshape t) ->
  agrees [t] (reshape_dependencies (tshape t ++ [f]) ((-1)%Z :: map Z.of_nat (new ++ [f]))) (fun _ vs => first_value vs)
    (reshape (n :: new) t).
Proof.
  intros Hf Hv HV l Hl. cbn [reshape tshape tval] in *. unfold reshape_dependencies, reshape_target.
  cbn [existsb]. rewrite Z.eqb_refl. cbn [orb count_before]. rewrite Z.eqb_refl.
  change (skipn 1 ((-1)%Z :: map Z.of_nat (new ++ [f]))) with (map Z.of_nat (new ++ [f])). rewrite existsb_of_nat.
  assert (P : fold_right Z.mul 1%Z ((-1)%Z :: map Z.of_nat (new ++ [f])) = (- (Z.of_nat (volume new) * Z.of_nat f))%Z).
  { cbn [fold_right]. assert (G : forall s, fold_right Z.mul 1%Z (map Z.of_nat s) = Z.of_nat (volume s)).
    { induction s as [|a s IH]; [reflexivity|]. cbn [map fold_right]. rewrite IH, volume_cons. lia. }
    rewrite G, volume_app. unfold volume at 2. cbn [fold_right]. lia. }
  rewrite P. change (fold_right Nat.mul 1 (tshape t ++ [f])) with (volume (tshape t ++ [f])).
  rewrite volume_app, <- HV, volume_cons. replace (volume [f]) with f by (unfold volume; cbn [fold_right]; lia).
  assert (M : (Z.of_nat (n * volume new * f) mod (- (Z.of_nat (volume new) * Z.of_nat f)) = 0)%Z).
  { replace (Z.of_nat (n * volume new * f)) with ((- Z.of_nat n) * (- (Z.of_nat (volume new) * Z.of_nat f)))%Z by lia.
    apply Z_mod_mult. }
  rewrite M. cbn [negb Z.eqb bind]. rewrite map_app. cbn [map].
  set (q := (- Z.of_nat (n * volume new * f) / - (Z.of_nat (volume new) * Z.of_nat f))%Z).
  replace (((-1)%Z :: map Z.of_nat new ++ [Z.of_nat f]) ++ [q] ++ map Z.of_nat new ++ [Z.of_nat f])
    with (((-1)%Z :: map Z.of_nat new ++ [Z.of_nat f] ++ [q] ++ map Z.of_nat new) ++ [Z.of_nat f]).
  2:{ cbn [app]. f_equal. rewrite <- !app_assoc. reflexivity. }
  rewrite last_snoc, last_snoc, Z.eqb_refl. cbn [bind]. rewrite !removelast_snoc.
  inversion Hl as [|i ? l' ? Hi Hl']; subst. cbn [to_flat_spatial_location flat_loop].
  pose proof (in_shape_length _ _ Hl') as Ll.
  replace (0 * -1 + Z.of_nat i)%Z with (Z.of_nat (0 * n + i)) by lia.
  rewrite to_flat_loop by exact Ll.
  assert (K : flat_loop l' new (0 * n + i) < volume (tshape t)).
  { change (flat_loop l' new (0 * n + i)) with (flat_loop (i :: l') (n :: new) 0).
    rewrite flat_loop_acc by (constructor; auto). rewrite <- HV. cbn [Nat.mul Nat.add]. apply row_major_lt. constructor; auto. }
  rewrite from_flat_unravel by exact K. eexists _, [_]. split; [reflexivity|]. split; [|reflexivity].
  apply values_at_1. now apply unravel_in.
Qed.

(** The layer itself keeps the row-major position. *)
Lemma reshape_row_major {V} (t : tensor V) new l : volume new = volume (tshape t) -> in_shape new l ->
  exists l', in_shape (tshape t) l' /\ row_major (tshape t) l' = row_major new l /\ tval (reshape new t) l = tval t l'.
Proof.
  intros HV Hl. cbn [reshape tval]. rewrite flat_loop_acc by auto. cbn [Nat.mul Nat.add].
  pose proof (row_major_lt new l Hl) as K. rewrite HV in K. exists (unravel (tshape t) (row_major new l)).
  split; [now apply unravel_in|]. split; [|reflexivity]. revert K. generalize (row_major new l). generalize (tshape t).
  clear. induction l as [|n sh IH]; intros k K; cbn [unravel row_major].
  - unfold volume in K. cbn [fold_right] in K. lia.
  - rewrite volume_cons in K. fold (volume sh). rewrite IH by (apply Nat.mod_upper_bound; nia).
    rewrite (Nat.div_mod k (volume sh)) at 3 by nia. lia.
Qed.

(** * Registry *)

Lemma dict_get_set {L T} (eqb : L -> L -> bool) (Heq : forall a b, eqb a b = true <-> a = b) (d : registry L T) k v c :
  dict_get eqb (dict_set eqb d k v) c = if eqb c k then Some v else dict_get eqb d c.
Proof.
  induction d as [|[k' v'] d IH]; cbn [dict_set dict_get].
  - destruct (eqb c k); reflexivity.
  - destruct (eqb k k') eqn:E; cbn [dict_get].
    + apply Heq in E. subst k'. destruct (eqb c k); reflexivity.
    + rewrite IH. destruct (eqb c k') eqn:E2; [|reflexivity]. apply Heq in E2. subst c.
      destruct (eqb k' k) eqn:E3; [|reflexivity]. apply Heq in E3. subst k. rewrite (proj2 (Heq k' k') eq_refl) in E. discriminate.
Qed.

Lemma dispatch_last {L T} (eqb : L -> L -> bool) (Heq : forall a b, eqb a b = true <-> a = b) (history : list (L * T)) (cls : L) (k : nat) :
  get_layer_topology eqb (register_all eqb history) (wrapped k (Instance cls)) =
  match last_registered eqb history cls with Some tc => Ok (NewTopology tc cls) | None => Err UnsupportedLayer end.
Proof.
  assert (W : forall (d : registry L T), get_layer_topology eqb d (wrapped k (Instance cls)) = get_layer_topology eqb d (Instance cls)).
  { intros d. induction k; cbn [wrapped get_layer_topology]; auto. }
  rewrite W. cbn [get_layer_topology].
  assert (E : dict_get eqb (register_all eqb history) cls = last_registered eqb history cls).
  { unfold register_all, last_registered. induction history as [|[k' v'] h IH] using rev_ind; [reflexivity|].
    rewrite fold_left_app. cbn [fold_left fst snd]. rewrite dict_get_set by auto. rewrite rev_app_distr. cbn [rev app find fst].
    destruct (eqb cls k'); [reflexivity|exact IH]. }
  rewrite E. destruct (last_registered eqb history cls); reflexivity.
Qed.
