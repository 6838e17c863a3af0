(** Lemmas about exact/utils.py. *)
From Coq Require Import List ZArith Lia Arith Bool.
From Verif Require Import Base ExactUtilsModel ExactUtilsSpec.
Import ListNotations.
Local Open Scope Z_scope.

Lemma mod2_cases d : d mod 2 = 0 \/ d mod 2 = 1.
Proof. pose proof (Z.mod_pos_bound d 2). lia. Qed.

Lemma d2b_length d n zb : length (decimal_to_binary d n zb) = n.
Proof. revert d; induction n; intros; simpl; auto. Qed.

Lemma d2b_alphabet d n zb : spin_string zb (decimal_to_binary d n zb).
Proof.
  revert d; induction n; intros d; simpl; constructor; auto.
  - unfold low. destruct (mod2_cases d) as [->| ->]; destruct zb; simpl; auto.
  - apply IHn.
Qed.

Lemma b2d_loop_eq l : forall r p, binary_to_decimal_loop l r p = r + p * binary_to_decimal_loop l 0 1.
Proof.
  induction l as [|a t IH]; intros r p; cbn [binary_to_decimal_loop].
  - lia.
  - rewrite IH. rewrite (IH (if a =? 1 then 0 + 1 else 0) (1 * 2)).
    destruct (a =? 1); lia.
Qed.

Lemma b2d_cons a t : binary_to_decimal (a :: t) = (if a =? 1 then 1 else 0) + 2 * binary_to_decimal t.
Proof. unfold binary_to_decimal. cbn [binary_to_decimal_loop]. rewrite b2d_loop_eq. destruct (a =? 1); lia. Qed.

Lemma b2d_range l : 0 <= binary_to_decimal l < 2 ^ Z.of_nat (length l).
Proof.
  induction l as [|a t IH].
  - unfold binary_to_decimal; simpl; lia.
  - rewrite b2d_cons. cbn [length]. rewrite Nat2Z.inj_succ, Z.pow_succ_r by lia.
    destruct (a =? 1); lia.
Qed.

Lemma pow2_S n : 2 ^ Z.of_nat (S n) = 2 * 2 ^ Z.of_nat n.
Proof. rewrite Nat2Z.inj_succ, Z.pow_succ_r; lia. Qed.

Lemma b2d_d2b n : forall d zb, 0 <= d < 2 ^ Z.of_nat n -> binary_to_decimal (decimal_to_binary d n zb) = d.
Proof.
  induction n; intros d zb H.
  - simpl in H. unfold binary_to_decimal; simpl. lia.
  - rewrite pow2_S in H. cbn [decimal_to_binary]. rewrite b2d_cons.
    assert (0 <= d / 2 < 2 ^ Z.of_nat n).
    { split; [apply Z.div_pos; lia | apply Z.div_lt_upper_bound; lia]. }
    rewrite IHn by auto.
    pose proof (Z.div_mod d 2 ltac:(lia)) as E.
    destruct (mod2_cases d) as [M|M]; rewrite M in *; destruct zb;
      match goal with |- context [if ?c then 1 else 0] => let v := eval compute in c in change c with v end; cbv iota; lia.
Qed.

Lemma d2b_b2d l : forall zb, spin_string zb l -> decimal_to_binary (binary_to_decimal l) (length l) zb = l.
Proof.
  induction l as [|a t IH]; intros zb H; simpl; auto.
  inversion H as [|? ? Ha Ht]; subst. rewrite b2d_cons.
  assert (D : ((if a =? 1 then 1 else 0) + 2 * binary_to_decimal t) / 2 = binary_to_decimal t).
  { rewrite Z.mul_comm, Z.div_add by lia. destruct (a =? 1); reflexivity. }
  assert (M : ((if a =? 1 then 1 else 0) + 2 * binary_to_decimal t) mod 2 = if a =? 1 then 1 else 0).
  { rewrite Z.mul_comm, Z.mod_add by lia. destruct (a =? 1); simpl; reflexivity. }
  rewrite D, M, IH by auto. f_equal.
  unfold low in Ha. destruct (Z.eqb_spec a 1); destruct zb; lia.
Qed.

Lemma d2b_digit n : forall d zb i, (i < n)%nat ->
  nth i (decimal_to_binary d n zb) 0 = if Z.testbit d (Z.of_nat i) then 1 else low zb.
Proof.
  induction n; intros d zb i Hi; [lia|].
  cbn [decimal_to_binary]. destruct i as [|i].
  - change (Z.of_nat 0) with 0. cbn [nth]. rewrite <- Z.bit0_mod. unfold low.
    destruct (Z.testbit d 0), zb; reflexivity.
  - cbn [nth]. rewrite IHn by lia. rewrite <- Z.div2_div, Z.div2_spec, Z.shiftr_spec by lia.
    rewrite Nat2Z.inj_succ. reflexivity.
Qed.

Lemma positional_value_cons a t : positional_value (a :: t) = (if a =? 1 then 1 else 0) + 2 * positional_value t.
Proof.
  unfold positional_value. cbn [length seq map fold_right].
  change (nth 0 (a :: t) 0) with a. change (2 ^ Z.of_nat 0) with 1. f_equal.
  rewrite <- seq_shift, map_map.
  generalize (seq 0 (length t)). induction l as [|x l IH]; cbn [map fold_right]; [lia|].
  rewrite IH. cbn [nth]. rewrite pow2_S. destruct (nth x t 0 =? 1); lia.
Qed.

Lemma b2d_positional l : binary_to_decimal l = positional_value l.
Proof.
  induction l as [|a t IH]; [reflexivity|]. now rewrite b2d_cons, positional_value_cons, IH.
Qed.

(** * Array versions *)

Lemma wrap32_id z : - 2 ^ 31 <= z < 2 ^ 31 -> wrap32 z = z.
Proof. intros H. unfold wrap32. rewrite Z.mod_small; lia. Qed.

Lemma wrap32_add z y : wrap32 (wrap32 z + y) = wrap32 (z + y).
Proof.
  unfold wrap32. f_equal.
  replace ((z + 2 ^ 31) mod 2 ^ 32 - 2 ^ 31 + y + 2 ^ 31) with ((z + 2 ^ 31) mod 2 ^ 32 + y) by lia.
  rewrite Z.add_mod_idemp_l by lia. f_equal. lia.
Qed.

Lemma wrap32_wrap z : wrap32 (wrap32 z) = wrap32 z.
Proof. rewrite <- (Z.add_0_r (wrap32 z)) at 1. rewrite wrap32_add. f_equal. lia. Qed.

(** The accumulators after the columns [k .. k+m-1]. *)
Lemma b2d_columns_spec rows m : forall k out,
  Forall (fun r => length r = (k + m)%nat) rows -> length out = length rows ->
  b2d_columns rows (seq k m) (map wrap32 out) (2 ^ Z.of_nat k) =
  map2 (fun o r => wrap32 (o + 2 ^ Z.of_nat k * binary_to_decimal (skipn k r))) out rows.
Proof.
  induction m; intros k out HR HL.
  - simpl. revert out HL. induction rows as [|r rows IH]; intros [|o out] HL; simpl in *; try lia; auto.
    inversion HR as [|? ? Hr HRR]; subst.
    rewrite skipn_all2 by lia. unfold binary_to_decimal at 1. simpl. rewrite Z.mul_0_r, Z.add_0_r.
    f_equal. apply IH; auto.
  - cbn [seq b2d_columns].
    replace (2 ^ Z.of_nat k * 2) with (2 ^ Z.of_nat (S k)) by (rewrite pow2_S; lia).
    rewrite map2_map_l.
    rewrite (map2_ext_in _ (fun o row => wrap32 (o + (if nth k row 0 =? 1 then 2 ^ Z.of_nat k else 0))))
      by (intros; apply wrap32_add).
    set (out' := map2 (fun o row => o + (if nth k row 0 =? 1 then 2 ^ Z.of_nat k else 0)) out rows).
    assert (E : map2 (fun o row => wrap32 (o + (if nth k row 0 =? 1 then 2 ^ Z.of_nat k else 0))) out rows
                = map wrap32 out').
    { unfold out'. clear. revert rows; induction out as [|o out IH]; intros [|r rows]; simpl; auto.
      now rewrite IH. }
    rewrite E, IHm.
    + unfold out'. clear IHm E out'. revert out HL; induction rows as [|r rows IH]; intros [|o out] HL;
        cbn [map2 length] in *; try lia; auto.
      inversion HR as [|? ? Hr HRR]; subst. f_equal; [|apply IH; auto].
      f_equal. replace (skipn k r) with (nth k r 0 :: skipn (S k) r).
      * rewrite b2d_cons, pow2_S. destruct (nth k r 0 =? 1); lia.
      * assert (k < length r)%nat by lia. clear - H. revert k H.
        induction r as [|x r IH]; intros [|k] H; simpl in *; try lia; auto.
        rewrite IH by lia. destruct r; simpl in *; auto; lia.
    + eapply Forall_impl; [|exact HR]. simpl. intros; lia.
    + unfold out'. rewrite map2_length. lia.
Qed.

Lemma bad_none ncols rows :
  Forall (fun r => length r = ncols) rows ->
  binary_array_to_decimal_array ncols rows None = map (fun r => wrap32 (binary_to_decimal r)) rows.
Proof.
  intros H. unfold binary_array_to_decimal_array, range.
  replace (repeat 0 (length rows)) with (map wrap32 (repeat 0 (length rows))).
  2:{ induction rows as [|? ? IH]; simpl; auto. inversion H; subst. f_equal; auto. }
  change 1 with (2 ^ Z.of_nat 0). rewrite b2d_columns_spec.
  - clear H. induction rows as [|r rows IH]; cbn [map2 map repeat length]; auto. f_equal; auto. f_equal.
    change (2 ^ Z.of_nat 0) with 1. cbn [skipn]. lia.
  - exact H.
  - apply repeat_length.
Qed.

Lemma bad_some ncols rows out :
  Forall (fun r => length r = ncols) rows -> length out = length rows ->
  Forall (fun o => - 2 ^ 31 <= o < 2 ^ 31) out ->
  binary_array_to_decimal_array ncols rows (Some out) =
  map2 (fun o r => wrap32 (o + binary_to_decimal r)) out rows.
Proof.
  intros H HL HO. unfold binary_array_to_decimal_array, range.
  replace out with (map wrap32 out) at 1.
  2:{ clear - HO. induction out; simpl; auto. inversion HO; subst. f_equal; auto. now apply wrap32_id. }
  change 1 with (2 ^ Z.of_nat 0). rewrite b2d_columns_spec; auto.
  apply map2_ext_in. intros. f_equal. change (2 ^ Z.of_nat 0) with 1. cbn [skipn]. lia.
Qed.

Lemma bad_exact ncols rows :
  (ncols <= 31)%nat -> Forall (fun r => length r = ncols) rows ->
  binary_array_to_decimal_array ncols rows None = map binary_to_decimal rows.
Proof.
  intros N H. rewrite bad_none by auto. apply map_ext_in. intros r Hr.
  rewrite Forall_forall in H. apply wrap32_id. pose proof (b2d_range r). rewrite H in H0 by auto.
  assert (2 ^ Z.of_nat ncols <= 2 ^ 31) by (apply Z.pow_le_mono_r; lia). lia.
Qed.

Lemma bad_overflow row :
  length row = 32%nat -> nth 31 row 0 = 1 ->
  binary_array_to_decimal_array 32 [row] None = [binary_to_decimal row - 2 ^ 32].
Proof.
  intros L B. rewrite bad_none by (repeat constructor; auto). simpl. f_equal.
  unfold wrap32.
  assert (2 ^ 31 <= binary_to_decimal row < 2 ^ 32).
  { pose proof (b2d_range row). rewrite L in H. split; [|apply H].
    rewrite b2d_positional.
    assert (E : row = firstn 31 row ++ [1]).
    { rewrite <- (firstn_skipn 31 row) at 1. f_equal.
      assert (length (skipn 31 row) = 1%nat) by (rewrite skipn_length; lia).
      destruct (skipn 31 row) as [|x [|y t]] eqn:S; simpl in H0; try lia.
      f_equal. rewrite <- B. rewrite <- (firstn_skipn 31 row).
      rewrite app_nth2; rewrite firstn_length, L; [|simpl; lia].
      replace (31 - Nat.min 31 32)%nat with 0%nat by reflexivity. now rewrite S. }
    rewrite E. assert (L1 : length (firstn 31 row) = 31%nat) by (rewrite firstn_length; lia).
    generalize dependent (firstn 31 row). intros l _ L1. clear - L1.
    assert (G : forall l, positional_value (l ++ [1]) = positional_value l + 2 ^ Z.of_nat (length l)).
    { clear. induction l as [|a t IH]; [reflexivity|].
      change ((a :: t) ++ [1]) with (a :: (t ++ [1])).
      rewrite !positional_value_cons, IH. cbn [length]. rewrite pow2_S. lia. }
    rewrite G, L1. rewrite <- b2d_positional. pose proof (b2d_range l). simpl Z.of_nat. lia. }
  rewrite <- (Z.mod_unique (binary_to_decimal row + 2 ^ 31) (2 ^ 32) 1
                (binary_to_decimal row + 2 ^ 31 - 2 ^ 32)); lia.
Qed.

(** [decimal_array_to_binary_array] *)
Lemma d2b_columns_spec zb m : forall k ds (out : list (list Z)),
  length out = length ds -> Forall (fun r => length r = (k + m)%nat) out ->
  d2b_columns ds (seq k m) zb out =
  map2 (fun row d => firstn k row ++ decimal_to_binary d m zb) out ds.
Proof.
  induction m; intros k ds out HL HF.
  - simpl. revert ds HL; induction out as [|r out IH]; intros [|d ds] HL; simpl in *; try lia; auto.
    inversion HF; subst. rewrite app_nil_r, firstn_all2 by lia. f_equal. apply IH; auto.
  - cbn [seq d2b_columns]. rewrite IHm.
    + clear IHm. revert ds HL; induction out as [|r out IH]; intros [|d ds] HL;
        cbn [map2 map length decimal_to_binary] in *; try lia; auto.
      inversion HF as [|? ? Hr HF']; subst. f_equal; [|apply IH; auto].
      rewrite firstn_upd_last by lia. rewrite <- app_assoc. reflexivity.
    + rewrite map2_length, map_length. lia.
    + clear IHm. revert ds HL; induction out as [|r out IH]; intros [|d ds] HL; simpl in *; try lia; auto.
      inversion HF as [|? ? Hr HF']; subst. constructor; [rewrite upd_length; lia | apply IH; auto].
Qed.

Lemma dab_none ds n zb :
  decimal_array_to_binary_array ds n zb None = map (fun d => decimal_to_binary d n zb) ds.
Proof.
  unfold decimal_array_to_binary_array, range. rewrite d2b_columns_spec.
  - induction ds; simpl; auto. f_equal. exact IHds.
  - apply repeat_length.
  - apply Forall_forall. intros r Hr. apply repeat_spec in Hr. subst. rewrite repeat_length. lia.
Qed.

Lemma dab_some ds n zb out :
  length out = length ds -> Forall (fun r => length r = n) out ->
  decimal_array_to_binary_array ds n zb (Some out) = map (fun d => decimal_to_binary d n zb) ds.
Proof.
  intros HL HF. unfold decimal_array_to_binary_array, range. rewrite d2b_columns_spec; auto.
  clear HF. revert out HL; induction ds; intros [|o out] HL; simpl in *; try lia; auto. f_equal; auto.
Qed.

(** * Tabulation *)

Lemma assign_slice_full {A} (out : list A) i b vals :
  length vals = b -> (i + b <= length out)%nat ->
  assign_slice out i b vals = Ok (firstn i out ++ vals ++ skipn (i + b) out).
Proof.
  intros L H. unfold assign_slice.
  replace (Nat.min (i + b) (length out) - i)%nat with b by lia.
  now rewrite L, Nat.eqb_refl.
Qed.

Section Tab.
  Context {A : Type} (model : list Z -> A) (n b : nat).
  Let val i := model (decimal_to_binary (Z.of_nat i) n false).

  Lemma seq_shift_add i m : forall s, map (fun j => (i + j)%nat) (seq s m) = seq (i + s) m.
  Proof. induction m; intros s; simpl; auto. rewrite IHm. now rewrite Nat.add_succ_r. Qed.

  Lemma batch_vals i :
    map model (decimal_array_to_binary_array (arange (Z.of_nat i) b) n false None) = map val (seq i b).
  Proof.
    rewrite dab_none. unfold arange, range. rewrite !map_map.
    replace (seq i b) with (map (fun j => (i + j)%nat) (seq 0 b)).
    - rewrite map_map. apply map_ext. intros j. unfold val. now rewrite Nat2Z.inj_add.
    - rewrite seq_shift_add. now rewrite Nat.add_0_r.
  Qed.

  Lemma tabulate_loop_ok k : forall i out,
    length out = (i + k * b)%nat ->
    tabulate_loop model n b k i out = Ok (firstn i out ++ map val (seq i (k * b))).
  Proof.
    induction k; intros i out HL; simpl.
    - rewrite app_nil_r, firstn_all2 by lia. reflexivity.
    - rewrite batch_vals, assign_slice_full.
      + simpl. rewrite IHk.
        * f_equal. rewrite firstn_app. rewrite firstn_length.
          rewrite firstn_all2 by (rewrite firstn_length; lia).
          rewrite firstn_app, map_length, seq_length.
          replace (i + b - Nat.min i (length out) - b)%nat with 0%nat by lia.
          rewrite firstn_O, app_nil_r.
          rewrite (firstn_all2 (map val (seq i b))) by (rewrite map_length, seq_length; lia).
          rewrite <- app_assoc, <- map_app, <- seq_app. reflexivity.
        * rewrite !app_length, firstn_length, map_length, seq_length, skipn_length. lia.
      + now rewrite map_length, seq_length.
      + lia.
  Qed.

  Lemma tabulate_loop_err q r : forall i out,
    (0 < r < b)%nat -> length out = (i + q * b + r)%nat ->
    tabulate_loop model n b (S q) i out = Err ShapeError.
  Proof.
    induction q; intros i out HR HL.
    - simpl. rewrite batch_vals. unfold assign_slice. rewrite map_length, seq_length.
      replace (Nat.min (i + b) (length out) - i)%nat with r by lia.
      destruct (Nat.eqb_spec b r); [lia|].
      destruct b as [|[|b']]; [lia|lia|]. simpl. reflexivity.
    - remember (S q) as q' eqn:E. simpl. rewrite batch_vals, assign_slice_full.
      + simpl. subst q'. apply IHq; auto.
        rewrite !app_length, firstn_length, map_length, seq_length, skipn_length. lia.
      + now rewrite map_length, seq_length.
      + subst q'. lia.
  Qed.
End Tab.

Lemma range_steps_mult k b : (0 < b)%nat -> range_steps (k * b) b = k.
Proof.
  intros H. unfold range_steps. replace (k * b + b - 1)%nat with ((b - 1) + k * b)%nat by lia.
  rewrite Nat.div_add by lia. rewrite Nat.div_small by lia. reflexivity.
Qed.

Lemma range_steps_rem q r b : (0 < r < b)%nat -> range_steps (q * b + r) b = S q.
Proof.
  intros H. unfold range_steps. replace (q * b + r + b - 1)%nat with ((r - 1) + (S q) * b)%nat by lia.
  rewrite Nat.div_add by lia. rewrite Nat.div_small by lia. reflexivity.
Qed.

Lemma pow2_pos n : (0 < 2 ^ n)%nat.
Proof. induction n; [apply Nat.lt_0_1|]. rewrite Nat.pow_succ_r'. lia. Qed.

Lemma tabulate_ok {A} (zero : A) model n batch :
  (0 < batch)%nat -> (2 ^ n mod (Nat.min batch (2 ^ n)) = 0)%nat ->
  to_log_wave_function_vector zero model n batch =
  Ok (map (fun i => model (decimal_to_binary (Z.of_nat i) n false)) (range (2 ^ n))).
Proof.
  intros HB HD. unfold to_log_wave_function_vector.
  assert (E : (if (2 ^ n <? batch)%nat then 2 ^ n else batch)%nat = Nat.min batch (2 ^ n)).
  { destruct (Nat.ltb_spec (2 ^ n) batch); lia. }
  rewrite E. pose proof (pow2_pos n). set (b := Nat.min batch (2 ^ n)) in *.
  assert (Hb : (0 < b)%nat) by (unfold b; lia).
  destruct (Nat.eqb_spec b 0); [lia|].
  apply Nat.mod_divides in HD; [|lia]. destruct HD as [k Hk].
  rewrite Nat.mul_comm in Hk. rewrite Hk, range_steps_mult by auto.
  rewrite tabulate_loop_ok by (rewrite repeat_length; lia).
  reflexivity.
Qed.

Lemma tabulate_err {A} (zero : A) model n batch :
  (2 ^ n mod (Nat.min batch (2 ^ n)) <> 0)%nat -> (0 < batch)%nat ->
  to_log_wave_function_vector zero model n batch = Err ShapeError.
Proof.
  intros HD HB. unfold to_log_wave_function_vector.
  assert (E : (if (2 ^ n <? batch)%nat then 2 ^ n else batch)%nat = Nat.min batch (2 ^ n)).
  { destruct (Nat.ltb_spec (2 ^ n) batch); lia. }
  rewrite E. pose proof (pow2_pos n). set (b := Nat.min batch (2 ^ n)) in *.
  assert (Hb : (0 < b)%nat) by (unfold b; lia).
  destruct (Nat.eqb_spec b 0); [lia|].
  pose proof (Nat.div_mod (2 ^ n) b ltac:(lia)) as DM.
  pose proof (Nat.mod_upper_bound (2 ^ n) b ltac:(lia)) as UB.
  set (q := (2 ^ n / b)%nat) in *. set (r := (2 ^ n mod b)%nat) in *.
  rewrite Nat.mul_comm in DM. rewrite DM, range_steps_rem by lia.
  apply tabulate_loop_err with (r := r); [lia|]. rewrite repeat_length. lia.
Qed.

Lemma vector_to_machine_wrapped {A} (table : list A) spins :
  vector_to_machine table spins = np_index table (wrap32 (binary_to_decimal spins)).
Proof. unfold vector_to_machine. rewrite bad_none by (repeat constructor). reflexivity. Qed.

(** With 32 spins the wrapped index is negative and counts from the end of the table. *)
Lemma vector_to_machine_lookup {A} (table : list A) spins d :
  (length spins <= 32)%nat -> length table = (2 ^ length spins)%nat ->
  vector_to_machine table spins = Ok (nth (Z.to_nat (binary_to_decimal spins)) table d).
Proof.
  intros N L. rewrite vector_to_machine_wrapped. pose proof (b2d_range spins) as B.
  assert (LZ : Z.of_nat (length table) = 2 ^ Z.of_nat (length spins)) by (rewrite L, Nat2Z.inj_pow; reflexivity).
  assert (K : (if wrap32 (binary_to_decimal spins) <? 0 then wrap32 (binary_to_decimal spins) + Z.of_nat (length table)
               else wrap32 (binary_to_decimal spins)) = binary_to_decimal spins).
  { destruct (Z.lt_ge_cases (binary_to_decimal spins) (2 ^ 31)) as [H|H].
    - rewrite wrap32_id by lia. destruct (Z.ltb_spec (binary_to_decimal spins) 0); lia.
    - assert (length spins = 32)%nat as E.
      { destruct (Nat.eq_dec (length spins) 32) as [E|E]; [exact E|].
        assert (2 ^ Z.of_nat (length spins) <= 2 ^ 31) by (apply Z.pow_le_mono_r; lia). lia. }
      rewrite E in B, LZ. change (Z.of_nat 32) with 32 in *. unfold wrap32.
      replace ((binary_to_decimal spins + 2 ^ 31) mod 2 ^ 32) with (binary_to_decimal spins - 2 ^ 31)
        by (apply (Zmod_unique _ _ 1); lia).
      rewrite LZ. destruct (Z.ltb_spec (binary_to_decimal spins - 2 ^ 31 - 2 ^ 31) 0); lia. }
  unfold np_index. cbv zeta. rewrite K.
  destruct (Z.ltb_spec (binary_to_decimal spins) 0); [lia|].
  assert (Z.to_nat (binary_to_decimal spins) < length table)%nat.
  { apply Nat2Z.inj_lt. rewrite Z2Nat.id by lia. lia. }
  now rewrite (nth_error_nth' _ d).
Qed.

(** From 33 spins on the sites after the first 32 are not seen. *)
Lemma b2d_app a b : binary_to_decimal (a ++ b) = binary_to_decimal a + 2 ^ Z.of_nat (length a) * binary_to_decimal b.
Proof.
  induction a as [|x a IH]; cbn [app length].
  - change (binary_to_decimal []) with 0. change (2 ^ Z.of_nat 0) with 1. ring.
  - rewrite !b2d_cons, IH, Nat2Z.inj_succ, Z.pow_succ_r by lia. ring.
Qed.
Lemma vector_to_machine_blind {A} (table : list A) a b c : length a = 32%nat ->
  vector_to_machine table (a ++ b) = vector_to_machine table (a ++ c).
Proof.
  intros L. rewrite !vector_to_machine_wrapped. f_equal. rewrite !b2d_app, L. unfold wrap32. f_equal. change (Z.of_nat 32) with 32.
  replace (binary_to_decimal a + 2 ^ 32 * binary_to_decimal b + 2 ^ 31) with (binary_to_decimal a + 2 ^ 31 + binary_to_decimal b * 2 ^ 32) by ring.
  replace (binary_to_decimal a + 2 ^ 32 * binary_to_decimal c + 2 ^ 31) with (binary_to_decimal a + 2 ^ 31 + binary_to_decimal c * 2 ^ 32) by ring.
  now rewrite !Z.mod_add by lia.
Qed.

Lemma table_roundtrip {A} (zero : A) model n batch table spins :
  to_log_wave_function_vector zero model n batch = Ok table ->
  (n <= 32)%nat -> length spins = n -> spin_string false spins ->
  vector_to_machine table spins = Ok (model spins).
Proof.
  intros T N L S.
  destruct (Nat.eq_dec batch 0) as [->|HB0].
  { unfold to_log_wave_function_vector in T. destruct (2 ^ n <? 0)%nat eqn:Q.
    - apply Nat.ltb_lt in Q. lia.
    - discriminate. }
  destruct (Nat.eq_dec (2 ^ n mod (Nat.min batch (2 ^ n))) 0)%nat as [D|D].
  2:{ rewrite tabulate_err in T by (auto; lia). discriminate. }
  rewrite tabulate_ok in T by (auto; lia). injection T as T. subst n.
  rewrite (vector_to_machine_lookup table spins zero); auto.
  - f_equal. subst table.
    pose proof (b2d_range spins) as B.
    rewrite nth_map_range.
    + rewrite Z2Nat.id by lia. now rewrite d2b_b2d.
    + apply Nat2Z.inj_lt. rewrite Z2Nat.id by lia. rewrite Nat2Z.inj_pow. simpl Z.of_nat at 2. lia.
  - subst table. now rewrite map_length, range_length.
Qed.

Lemma d2b_exists_unique n zb : forall l, length l = n -> spin_string zb l ->
  exists! d, 0 <= d < 2 ^ Z.of_nat n /\ decimal_to_binary d n zb = l.
Proof.
  intros l L S. subst n. exists (binary_to_decimal l). split.
  - split; [apply b2d_range | now apply d2b_b2d].
  - intros d [Hd E]. rewrite <- E. rewrite b2d_d2b; auto.
Qed.

Lemma dab_any ds n zb (out : option (list (list Z))) :
  (forall o, out = Some o -> length o = length ds /\ Forall (fun r => length r = n) o) ->
  decimal_array_to_binary_array ds n zb out = map (fun d => decimal_to_binary d n zb) ds.
Proof.
  intros H. destruct out as [o|].
  - destruct (H o eq_refl). now apply dab_some.
  - apply dab_none.
Qed.

Lemma bad_dirty row o :
  (length row <= 30)%nat -> 0 < o < 2 ^ 30 ->
  binary_array_to_decimal_array (length row) [row] (Some [o]) = [o + binary_to_decimal row] /\
  binary_array_to_decimal_array (length row) [row] (Some [o]) <> [binary_to_decimal row].
Proof.
  intros L O. rewrite bad_some.
  - simpl. pose proof (b2d_range row) as B.
    assert (2 ^ Z.of_nat (length row) <= 2 ^ 30) by (apply Z.pow_le_mono_r; lia).
    rewrite wrap32_id by lia. split; auto. intros E. injection E as E. lia.
  - repeat constructor.
  - reflexivity.
  - constructor; [lia|constructor].
Qed.
