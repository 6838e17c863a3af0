(** C58: reading a real network output as log amplitudes. *)
From Coq Require Import List ZArith Arith Bool Reals Lia Lra.
From Verif Require Import Base Cplx OrderingModel OrderingSpec OrderingProofs TensorModel AutoregressiveModel LatticeSpec
  EncodingModel EncodingSpec EncodingProofs.
Import ListNotations.

(** Every tensor, every axis but the batch (or the default, the last one) of even size 2m: entry k of the result has entry k
    as real part and entry k + m as imaginary part. *)
Theorem C58_vector_to_complex axis static x p m : describes static (tshape x) -> 0 < p < length (tshape x) ->
  axis = Z.of_nat p \/ axis = (-1)%Z /\ S p = length (tshape x) -> nth p (tshape x) 0 = 2 * m -> 0 < volume (tl (tshape x)) ->
  exists y, vector_to_complex_number axis static x = Ok y /\ tshape y = upd (tshape x) p m /\
    forall l, in_shape (upd (tshape x) p m) l -> tval y l = (tval x l, tval x (upd l p (nth p l 0 + m))).
Proof. apply vtc_result. Qed.
(** Two examples, a row of three spins, four features per site. *)
Definition example_output : tensor R := {| tshape := [2; 3; 4]; tval := fun l => INR (row_major [2; 3; 4] l) |}.
Definition example_spins : tensor Z := {| tshape := [2; 3]; tval := fun l => nth (row_major [2; 3] l) [1; -1; -1; -1; 1; 1]%Z 0%Z |}.
Example C58_vector_to_complex_example : exists y, vector_to_complex_number (-1) [None; Some 3; Some 4] example_output = Ok y /\
  tshape y = [2; 3; 2] /\ tval y [0; 1; 1] = (5, 7)%R.
Proof.
  destruct (C58_vector_to_complex (-1) [None; Some 3; Some 4] example_output 2 2) as (y & E & T & V).
  - split; [left|]; reflexivity.
  - cbn. lia.
  - right. split; reflexivity.
  - reflexivity.
  - vm_compute. lia.
  - exists y. split; [exact E|]. split; [exact T|]. rewrite V by (repeat constructor). cbn. f_equal; lra.
Qed.
Theorem C58_odd axis static x p : describes static (tshape x) -> 0 < p < length (tshape x) ->
  axis = Z.of_nat p \/ axis = (Z.of_nat p - Z.of_nat (length (tshape x)))%Z -> nth p (tshape x) 0 mod 2 = 1 ->
  vector_to_complex_number axis static x = Err AssertionError.
Proof. apply vtc_odd. Qed.
Example C58_odd_example : describes [None; Some 3; Some 4] (tshape example_output) /\ nth 1 (tshape example_output) 0 mod 2 = 1 /\
  vector_to_complex_number 1 [None; Some 3; Some 4] example_output = Err AssertionError.
Proof. split; [split; [left|]; reflexivity|]. split; reflexivity. Qed.
(** The batch axis of unknown size cannot be used. *)
Theorem C58_batch_axis known x : vector_to_complex_number 0 (None :: known) x = Err TypeError.
Proof. unfold vector_to_complex_number. cbn [length]. change (0 =? -1)%Z with false. change (0 <? 0)%Z with false. cbv iota.
  destruct (Z.leb_spec (Z.of_nat (S (length known))) 0); [lia|]. reflexivity. Qed.

(** An axis that the tensor does not have. *)
Theorem C58_no_axis : forall axis static x, static <> [] -> (axis < - Z.of_nat (length static) \/ Z.of_nat (length static) <= axis)%Z ->
  vector_to_complex_number axis static x = Err IndexError.
Proof.
  intros axis static x N H. assert (0 < length static) by (destruct static; [congruence|cbn; lia]). unfold vector_to_complex_number. cbv zeta.
  destruct (Z.eqb_spec axis (-1)) as [->|NE]; [lia|]. destruct (Z.ltb_spec axis 0).
  - destruct (Z.ltb_spec (axis + Z.of_nat (length static)) 0); [reflexivity|lia].
  - destruct (Z.leb_spec (Z.of_nat (length static)) axis); [|lia]. destruct (axis <? 0)%Z; reflexivity.
Qed.
Example C58_no_axis_example : vector_to_complex_number 3 [None; Some 3; Some 4] example_output = Err IndexError /\ vector_to_complex_number (-4) [None; Some 3; Some 4] example_output = Err IndexError.
Proof. split; reflexivity. Qed.
Print Assumptions C58_no_axis.

(** Neither can any other axis while the size of a further axis is unknown. *)
Theorem C58_unknown_size : forall axis static x p q, 0 < p < length static -> axis = Z.of_nat p \/ axis = (Z.of_nat p - Z.of_nat (length static))%Z ->
  0 < q < length static -> nth q static None = None -> (forall n, nth p static None = Some n -> n mod 2 = 0) ->
  vector_to_complex_number axis static x = Err TypeError.
Proof. exact vtc_unknown. Qed.
Example C58_unknown_size_example : 0 < 2 < length [None; None; Some 4] /\ nth 1 [None; None; Some 4] None = None /\
  vector_to_complex_number (-1) [None; None; Some 4] example_output = Err TypeError.
Proof. split; [cbn; lia|]. split; reflexivity. Qed.

(** The size of the batch cannot be inferred when another axis is empty. *)
Theorem C58_empty : forall axis static x p, describes static (tshape x) -> 0 < p < length (tshape x) -> axis = Z.of_nat p \/ axis = (Z.of_nat p - Z.of_nat (length (tshape x)))%Z ->
  nth p (tshape x) 0 mod 2 = 0 -> volume (tl (tshape x)) = 0 -> vector_to_complex_number axis static x = Err ValueError.
Proof. exact vtc_empty. Qed.
Example C58_empty_example : describes [None; Some 0; Some 4] [5; 0; 4] /\ volume (tl [5; 0; 4]) = 0. Proof. split; [split; [left|]|]; reflexivity. Qed.

(** A negative axis other than -1 unstacks the wrong axis: an error for every size but four, for size four neighbours are
    paired instead of the two halves. *)
Theorem C58_negative_axis axis static x p m : describes static (tshape x) -> 0 < p < length (tshape x) ->
  axis = (Z.of_nat p - Z.of_nat (length (tshape x)))%Z -> axis <> (-1)%Z -> nth p (tshape x) 0 = 2 * m -> 0 < volume (tl (tshape x)) ->
  if m =? 2 then
    exists y, vector_to_complex_number axis static x = Ok y /\ tshape y = upd (tshape x) p 2 /\
      forall l, in_shape (upd (tshape x) p 2) l -> tval y l = (tval x (upd l p (nth p l 0 * 2)), tval x (upd l p (nth p l 0 * 2 + 1)))
  else vector_to_complex_number axis static x = Err ValueError.
Proof. apply vtc_negative. Qed.
Example C58_negative_axis_example : let x := {| tshape := [2; 6; 3]; tval := fun l => INR (row_major [2; 6; 3] l) |} in
  describes [None; Some 6; Some 3] (tshape x) /\ nth 1 (tshape x) 0 = 2 * 3 /\ vector_to_complex_number (-2) [None; Some 6; Some 3] x = Err ValueError.
Proof. split; [split; [left|]; reflexivity|]. split; reflexivity. Qed.
Theorem C58_negative_axis_refuted : exists static x y, describes static (tshape x) /\ nth 1 (tshape x) 0 = 4 /\
  vector_to_complex_number (-2) static x = Ok y /\ tval y [0; 0; 0] <> (tval x [0; 0; 0], tval x [0; 2; 0]).
Proof.
  set (x := {| tshape := [1; 4; 1]; tval := fun l => INR (nth 1 l 0) |}).
  exists [None; Some 4; Some 1], x.
  destruct (C58_negative_axis (-2) [None; Some 4; Some 1] x 1 2) as (y & E & _ & V); cbn [x tshape length] in *; try lia; try reflexivity.
  - split; [left; reflexivity|reflexivity].
  - vm_compute. lia.
  - exists y. split; [split; [left; reflexivity|reflexivity]|]. split; [reflexivity|]. split; [exact E|].
    rewrite (V [0; 0; 0]) by (repeat constructor). cbn [nth upd x tval]. intros F. apply (f_equal snd) in F. cbn in F. lra.
Qed.

(** One-hot: a new last axis; +1 is category 0, -1 is category 1. *)
Theorem C58_one_hot x l c : is_spin (tval x l) ->
  tshape (plus_minus_one_to_one_hot_tensor x) = tshape x ++ [2] /\
  tval (plus_minus_one_to_one_hot_tensor x) (l ++ [c]) = if c =? category (tval x l) then 1%R else 0%R.
Proof.
  intros Sp. split; [reflexivity|]. unfold plus_minus_one_to_one_hot_tensor. rewrite one_hot_entry. cbn [tval]. rewrite (spin_category _ Sp).
  destruct Sp as [E|E]; rewrite E; destruct c as [|[|c]]; try reflexivity; cbn [category Z.eqb]; unfold category; cbn; destruct (c <? 0); reflexivity.
Qed.
Example C58_one_hot_example : is_spin (tval example_spins [0; 1]) /\ tval (plus_minus_one_to_one_hot_tensor example_spins) [0; 1; 1] = 1%R /\
  tval (plus_minus_one_to_one_hot_tensor example_spins) [0; 1; 0] = 0%R.
Proof. split; [right|split]; reflexivity. Qed.
(** Categories: exactly one entry is 1 for a value 0 .. n-1, none for other values. *)
Theorem C58_categories n x l c :
  tshape (to_one_hot_tensor n x) = tshape x ++ [n] /\
  (c < n -> tval (to_one_hot_tensor n x) (l ++ [c]) = if (tval x l =? Z.of_nat c)%Z then 1%R else 0%R) /\
  ((tval x l < 0 \/ Z.of_nat n <= tval x l)%Z -> tval (to_one_hot_tensor n x) (l ++ [c]) = 0%R).
Proof.
  split; [reflexivity|]. unfold to_one_hot_tensor. rewrite one_hot_entry. destruct (Nat.ltb_spec c n); cbn [andb]; split; intros H'; try reflexivity; try lia.
  destruct (Z.eqb_spec (tval x l) (Z.of_nat c)); [lia|reflexivity].
Qed.
Example C58_categories_example : tval (to_one_hot_tensor 3 {| tshape := [1]; tval := fun _ => 2%Z |}) [0; 2] = 1%R /\
  tval (to_one_hot_tensor 3 {| tshape := [1]; tval := fun _ => 3%Z |}) [0; 2] = 0%R.
Proof. split; reflexivity. Qed.

(** Combining: for every example the sum over the sites of the conditional of the value that the site has. *)
Theorem C58_combine batch sites x s : tshape x = batch :: sites ++ [2] -> tshape s = batch :: sites ->
  (forall l, in_shape (batch :: sites) l -> is_spin (tval s l)) ->
  exists y, combine_autoregressive_conditionals x (to_complex (plus_minus_one_to_one_hot_tensor s)) = Ok y /\ tshape y = [batch; 1] /\
    forall b, b < batch -> tval y [b; 0] = Csum (fun i => tval x (b :: i ++ [category (tval s (b :: i))])) (raster sites).
Proof.
  intros Sx Ss Sp. unfold plus_minus_one_to_one_hot_tensor.
  apply (combine_selects 2 batch sites x {| tshape := tshape s; tval := fun l => ((1 - tval s l) / 2)%Z |} (fun l => category (tval s l)) Sx Ss). intros l I. cbn [tval]. split; [apply spin_category; auto|].
  unfold category. destruct (_ =? _)%Z; lia.
Qed.
Example C58_combine_example : exists y, combine_autoregressive_conditionals {| tshape := [2; 3; 2]; tval := fun l => (INR (row_major [2; 3; 2] l), 1%R) |}
    (to_complex (plus_minus_one_to_one_hot_tensor example_spins)) = Ok y /\ tval y [0; 0] = (0 + 3 + 5, 3)%R.
Proof.
  destruct (C58_combine 2 [3] {| tshape := [2; 3; 2]; tval := fun l => (INR (row_major [2; 3; 2] l), 1%R) |} example_spins eq_refl eq_refl) as (y & E & _ & V).
  - intros l I. inversion I as [|i ? l' ? Hi T]; subst. inversion T as [|j ? l'' ? Hj T']; subst. inversion T'; subst.
    destruct i as [|[|i]], j as [|[|[|j]]]; try lia; (left; reflexivity) || (right; reflexivity).
  - exists y. split; [exact E|]. rewrite V by lia. cbn [raster range seq flat_map map app].
    repeat rewrite Csum_cons; unfold Csum; cbn [fold_right]; apply C_eq; unfold Re, Im, Cplus, C0; cbn; lra.
Qed.
Theorem C58_combine_categories n batch sites x s : tshape x = batch :: sites ++ [n] -> tshape s = batch :: sites ->
  (forall l, in_shape (batch :: sites) l -> (0 <= tval s l < Z.of_nat n)%Z) ->
  exists y, combine_autoregressive_conditionals x (to_complex (to_one_hot_tensor n s)) = Ok y /\ tshape y = [batch; 1] /\
    forall b, b < batch -> tval y [b; 0] = Csum (fun i => tval x (b :: i ++ [Z.to_nat (tval s (b :: i))])) (raster sites).
Proof.
  intros Sx Ss Sp. apply (combine_selects n batch sites x s (fun l => Z.to_nat (tval s l)) Sx Ss). intros l I. specialize (Sp l I). lia.
Qed.
Example C58_combine_categories_example : exists y, combine_autoregressive_conditionals {| tshape := [1; 2; 3]; tval := fun l => (INR (row_major [1; 2; 3] l), 1%R) |}
    (to_complex (to_one_hot_tensor 3 {| tshape := [1; 2]; tval := fun l => (Z.of_nat (nth 1 l 0%nat) + 1)%Z |})) = Ok y /\ tval y [0; 0] = (1 + 5, 2)%R.
Proof.
  destruct (C58_combine_categories 3 1 [2] {| tshape := [1; 2; 3]; tval := fun l => (INR (row_major [1; 2; 3] l), 1%R) |}
    {| tshape := [1; 2]; tval := fun l => (Z.of_nat (nth 1 l 0%nat) + 1)%Z |} eq_refl eq_refl) as (y & E & _ & V).
  - intros l I. inversion I as [|i ? l' ? Hi T]; subst. inversion T as [|j ? l'' ? Hj T']; subst. inversion T'; subst. cbn [tval nth]. lia.
  - exists y. split; [exact E|]. rewrite V by lia. cbn [raster range seq flat_map map app].
    repeat rewrite Csum_cons; cbn [tval nth app]; change (Z.to_nat (Z.of_nat 0 + 1)) with 1; change (Z.to_nat (Z.of_nat 1 + 1)) with 2; unfold Csum; cbn [fold_right]; apply C_eq; unfold Re, Im, Cplus, C0; cbn; lra.
Qed.

(** Together: a real network output with four features per site is read as the sum over the sites of feature c (real part)
    and feature c + 2 (imaginary part), c the category of the spin. *)
Theorem C58_amplitude static batch sites x s : describes static (tshape x) -> tshape x = batch :: sites ++ [4] -> tshape s = batch :: sites ->
  0 < volume sites -> (forall l, in_shape (batch :: sites) l -> is_spin (tval s l)) ->
  exists z y, vector_to_complex_number (-1) static x = Ok z /\
    combine_autoregressive_conditionals z (to_complex (plus_minus_one_to_one_hot_tensor s)) = Ok y /\ tshape y = [batch; 1] /\
    forall b, b < batch -> tval y [b; 0] =
      Csum (fun i => (tval x (b :: i ++ [category (tval s (b :: i))]), tval x (b :: i ++ [category (tval s (b :: i)) + 2]))) (raster sites).
Proof.
  intros D Sx Ss Vp Sp.
  assert (L : length (tshape x) = S (S (length sites))) by (rewrite Sx; cbn [length]; rewrite app_length; cbn [length]; lia).
  assert (U : upd (tshape x) (S (length sites)) 2 = batch :: sites ++ [2]).
  { rewrite Sx. cbn [upd]. f_equal. clear. induction sites as [|n t IH]; [reflexivity|]. cbn [length app upd]. now rewrite IH. }
  destruct (C58_vector_to_complex (-1) static x (S (length sites)) 2 D) as (z & Ez & Tz & Vz).
  - lia.
  - right. lia.
  - rewrite Sx. cbn [nth]. rewrite app_nth2, Nat.sub_diag by lia. reflexivity.
  - rewrite Sx. cbn [tl]. rewrite WeightNormProofs.volume_snoc. lia.
  - rewrite U in *. destruct (C58_combine batch sites z s Tz Ss Sp) as (y & Ey & Ty & Vy). exists z, y. split; [exact Ez|]. split; [exact Ey|]. split; [exact Ty|].
    intros b B. rewrite (Vy b B). apply Csum_ext. intros i Hi. apply in_raster in Hi. set (c := category (tval s (b :: i))).
    assert (Hc : c < 2) by (unfold c, category; destruct (_ =? _)%Z; lia).
    rewrite Vz.
    + f_equal. f_equal. pose proof (WeightNormProofs.in_shape_len _ _ Hi) as Li. cbn [nth upd]. rewrite <- Li, WeightNormProofs.nth_snoc_last. f_equal.
      clearbody c. clear. induction i as [|a i IH]; [reflexivity|]. cbn [length app upd]. now rewrite IH.
    + constructor; [exact B|]. apply RbmProofs.in_shape_unit; assumption.
Qed.

Print Assumptions C58_vector_to_complex.
Print Assumptions C58_odd.
Print Assumptions C58_batch_axis.
Print Assumptions C58_empty.
Print Assumptions C58_negative_axis.
Print Assumptions C58_negative_axis_refuted.
Print Assumptions C58_one_hot.
Print Assumptions C58_categories.
Print Assumptions C58_combine.
Print Assumptions C58_combine_categories.
Print Assumptions C58_amplitude.

Example C58_amplitude_example : exists z y, vector_to_complex_number (-1) [None; Some 3; Some 4] example_output = Ok z /\
  combine_autoregressive_conditionals z (to_complex (plus_minus_one_to_one_hot_tensor example_spins)) = Ok y /\
  tval y [0; 0] = (0 + 5 + 9, 2 + 7 + 11)%R /\ tval y [1; 0] = (13 + 16 + 20, 15 + 18 + 22)%R.
Proof.
  destruct (C58_amplitude [None; Some 3; Some 4] 2 [3] example_output example_spins) as (z & y & Ez & Ey & _ & V).
  - split; [left|]; reflexivity.
  - reflexivity.
  - reflexivity.
  - vm_compute. lia.
  - intros l I. inversion I as [|i ? l' ? Hi T]; subst. inversion T as [|j ? l'' ? Hj T']; subst. inversion T'; subst.
    destruct i as [|[|i]], j as [|[|[|j]]]; try lia; (left; reflexivity) || (right; reflexivity).
  - exists z, y. split; [exact Ez|]. split; [exact Ey|]. rewrite !V by lia. split; cbn [raster range seq flat_map map app];
      repeat rewrite Csum_cons; unfold Csum; cbn [fold_right]; apply C_eq; unfold Re, Im, Cplus, C0; cbn; lra.
Qed.
