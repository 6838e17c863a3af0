(** Properties C01, C02, C03 (exact/utils.py). *)
From Coq Require Import List ZArith Lia Arith Bool.
From Verif Require Import Base ExactUtilsModel ExactUtilsSpec ExactUtilsProofs.
Import ListNotations.
Local Open Scope Z_scope.

(** C01: encoding then decoding a number is the identity. *)
Theorem C01_decode_encode : forall (n : nat) (d : Z) (zb : bool),
  0 <= d < 2 ^ Z.of_nat n -> binary_to_decimal (decimal_to_binary d n zb) = d.
Proof. exact b2d_d2b. Qed.
Print Assumptions C01_decode_encode.
Example C01_decode_encode_ex : 0 <= 11 < 2 ^ Z.of_nat 5.
Proof. lia. Qed.

(** C01: decoding then encoding a string over the alphabet is the identity. *)
Theorem C01_encode_decode : forall (l : list Z) (zb : bool),
  spin_string zb l -> decimal_to_binary (binary_to_decimal l) (length l) zb = l.
Proof. exact d2b_b2d. Qed.
Print Assumptions C01_encode_decode.
Example C01_encode_decode_ex : spin_string false [1; -1; -1; 1].
Proof. repeat constructor; unfold low; lia. Qed.

(** C01: every string over the alphabet is hit by exactly one number below 2^n, and only such strings are
    produced. *)
Theorem C01_bijection : forall (n : nat) (zb : bool),
  (forall d, length (decimal_to_binary d n zb) = n /\ spin_string zb (decimal_to_binary d n zb)) /\
  (forall l, length l = n -> spin_string zb l ->
     exists! d, 0 <= d < 2 ^ Z.of_nat n /\ decimal_to_binary d n zb = l).
Proof.
  exact (fun n zb =>
    conj (fun d => conj (d2b_length d n zb) (d2b_alphabet d n zb)) (d2b_exists_unique n zb)).
Qed.
Print Assumptions C01_bijection.
Example C01_bijection_ex : length [1; 0; 1] = 3%nat /\ spin_string true [1; 0; 1].
Proof. split; [reflexivity|]. repeat constructor; unfold low; lia. Qed.

(** C01: the digits are the binary digits of the number (least significant first) and the decoded number is
    the positional value of the string. *)
Theorem C01_digits : forall (n : nat) (d : Z) (zb : bool) (i : nat), (i < n)%nat ->
  nth i (decimal_to_binary d n zb) 0 = if Z.testbit d (Z.of_nat i) then 1 else low zb.
Proof. exact d2b_digit. Qed.
Print Assumptions C01_digits.
Example C01_digits_ex : nth 2 (decimal_to_binary 4 3 false) 0 = 1.
Proof. reflexivity. Qed.

Theorem C01_positional : forall (l : list Z), binary_to_decimal l = positional_value l.
Proof. exact b2d_positional. Qed.
Print Assumptions C01_positional.
Example C01_positional_ex : positional_value [1; -1; 1] = 5.
Proof. reflexivity. Qed.

(** C02: encoding an array encodes each number, with or without a supplied buffer of the right shape. *)
Theorem C02_encode_array : forall (ds : list Z) (n : nat) (zb : bool) (out : option (list (list Z))),
  (forall o, out = Some o -> length o = length ds /\ Forall (fun r => length r = n) o) ->
  decimal_array_to_binary_array ds n zb out = map (fun d => decimal_to_binary d n zb) ds.
Proof. exact dab_any. Qed.
Print Assumptions C02_encode_array.
Example C02_encode_array_ex :
  decimal_array_to_binary_array [6; 1] 3 false (Some [[7; 7; 7]; [9; 9; 9]]) = [[-1; 1; 1]; [1; -1; -1]].
Proof. reflexivity. Qed.

(** C02: decoding an array decodes each row as long as the value fits in 31 bits. *)
Theorem C02_decode_array : forall (ncols : nat) (rows : list (list Z)),
  (ncols <= 31)%nat -> Forall (fun r => length r = ncols) rows ->
  binary_array_to_decimal_array ncols rows None = map binary_to_decimal rows.
Proof. exact bad_exact. Qed.
Print Assumptions C02_decode_array.
Example C02_decode_array_ex :
  Forall (fun r => length r = 3%nat) [[1; -1; 1]; [-1; -1; 1]] /\
  binary_array_to_decimal_array 3 [[1; -1; 1]; [-1; -1; 1]] None = [5; 4].
Proof. split; [repeat constructor | reflexivity]. Qed.

(** C02: in general the result is the 32 bit wrap of buffer content plus decoded value. *)
Theorem C02_decode_array_general : forall (ncols : nat) (rows : list (list Z)) (out : list Z),
  Forall (fun r => length r = ncols) rows -> length out = length rows ->
  Forall (fun o => - 2 ^ 31 <= o < 2 ^ 31) out ->
  binary_array_to_decimal_array ncols rows (Some out) =
  map2 (fun o r => wrap32 (o + binary_to_decimal r)) out rows.
Proof. exact bad_some. Qed.
Print Assumptions C02_decode_array_general.
Example C02_decode_array_general_ex :
  binary_array_to_decimal_array 2 [[1; 1]; [-1; 1]] (Some [10; 20]) = [13; 22].
Proof. reflexivity. Qed.

(** C02: the claim "decoding an array decodes each row" is false for 32 columns (the result is off by 2^32
    whenever the last digit is 1) ... *)
Theorem C02_decode_overflow_refuted : forall (row : list Z),
  length row = 32%nat -> nth 31 row 0 = 1 ->
  binary_array_to_decimal_array 32 [row] None = [binary_to_decimal row - 2 ^ 32].
Proof. exact bad_overflow. Qed.
Print Assumptions C02_decode_overflow_refuted.
Example C02_decode_overflow_refuted_ex : nth 31 (repeat 1 32) 0 = 1.
Proof. reflexivity. Qed.

(** ... and for a buffer that is not zero: every non zero entry shifts the result. *)
Theorem C02_dirty_buffer_refuted : forall (row : list Z) (o : Z),
  (length row <= 30)%nat -> 0 < o < 2 ^ 30 ->
  binary_array_to_decimal_array (length row) [row] (Some [o]) = [o + binary_to_decimal row] /\
  binary_array_to_decimal_array (length row) [row] (Some [o]) <> [binary_to_decimal row].
Proof. exact bad_dirty. Qed.
Print Assumptions C02_dirty_buffer_refuted.
Example C02_dirty_buffer_refuted_ex : binary_array_to_decimal_array 2 [[1; 1]] (Some [1]) = [4].
Proof. reflexivity. Qed.

(** C03: when the clamped batch size divides 2^n the table lists the model's value on the configuration of
    each index. *)
Theorem C03_table : forall (A : Type) (zero : A) (model : list Z -> A) (n batch : nat),
  (0 < batch)%nat -> (2 ^ n mod (Nat.min batch (2 ^ n)) = 0)%nat ->
  to_log_wave_function_vector zero model n batch =
  Ok (map (fun i => model (decimal_to_binary (Z.of_nat i) n false)) (range (2 ^ n))).
Proof. exact @tabulate_ok. Qed.
Print Assumptions C03_table.
Example C03_table_ex : to_log_wave_function_vector 0 (fold_right Z.add 0) 3 4 = Ok [-3; -1; -1; 1; -1; 1; 1; 3].
Proof. reflexivity. Qed.

(** C03: looking up any successfully built table gives the model back on every configuration. *)
Theorem C03_lookup_after_table :
  forall (A : Type) (zero : A) (model : list Z -> A) (n batch : nat) (table : list A) (spins : list Z),
  to_log_wave_function_vector zero model n batch = Ok table ->
  (n <= 32)%nat -> length spins = n -> spin_string false spins ->
  vector_to_machine table spins = Ok (model spins).
Proof. exact @table_roundtrip. Qed.
Print Assumptions C03_lookup_after_table.
Example C03_lookup_after_table_ex :
  to_log_wave_function_vector 0 (fun l => nth 0 l 0) 2 2 = Ok [-1; 1; -1; 1] /\
  vector_to_machine [-1; 1; -1; 1] [1; -1] = Ok 1.
Proof. split; reflexivity. Qed.

(** A table that is too short for the configuration raises (with 32 spins the upper half of the indices counts from the end). *)
Theorem C03_lookup_short_table : forall (A : Type) (table : list A) (spins : list Z),
  ((length spins <= 31)%nat -> Z.of_nat (length table) <= binary_to_decimal spins -> vector_to_machine table spins = Err IndexError) /\
  (length spins = 32%nat -> 2 ^ 31 <= binary_to_decimal spins -> Z.of_nat (length table) < 2 ^ 32 - binary_to_decimal spins ->
   vector_to_machine table spins = Err IndexError).
Proof.
  intros A table spins. split.
  2:{ intros N H L. rewrite vector_to_machine_wrapped. pose proof (b2d_range spins) as B. rewrite N in B. change (Z.of_nat 32) with 32 in B.
      assert (W : wrap32 (binary_to_decimal spins) = binary_to_decimal spins - 2 ^ 32).
      { unfold wrap32. replace ((binary_to_decimal spins + 2 ^ 31) mod 2 ^ 32) with (binary_to_decimal spins - 2 ^ 31); [ring|].
        apply (Zmod_unique _ _ 1); lia. }
      rewrite W. unfold np_index. destruct (Z.ltb_spec (binary_to_decimal spins - 2 ^ 32) 0); [|lia]. cbv zeta.
      destruct (Z.ltb_spec (binary_to_decimal spins - 2 ^ 32 + Z.of_nat (length table)) 0); [reflexivity|lia]. }
  intros N L. rewrite vector_to_machine_wrapped. pose proof (b2d_range spins) as B.
  assert (2 ^ Z.of_nat (length spins) <= 2 ^ 31) by (apply Z.pow_le_mono_r; lia).
  rewrite wrap32_id by lia. unfold np_index. destruct (Z.ltb_spec (binary_to_decimal spins) 0); [lia|]. cbv zeta.
  destruct (Z.ltb_spec (binary_to_decimal spins) 0); [lia|]. rewrite (proj2 (nth_error_None _ _)); [reflexivity|lia].
Qed.
Print Assumptions C03_lookup_short_table.
Example C03_lookup_short_table_ex : (length [1; 1] <= 31)%nat /\ Z.of_nat (length [0; 0; 0]) <= binary_to_decimal [1; 1] /\
  let s := repeat (-1) 31 ++ [1] in length s = 32%nat /\ 2 ^ 31 <= binary_to_decimal s /\ Z.of_nat (length [0; 0; 0]) < 2 ^ 32 - binary_to_decimal s.
Proof. vm_compute. repeat split; try lia; discriminate. Qed.

(** From 33 spins on the looked up value does not depend on the sites after the first 32, whatever the table. *)
Theorem C03_lookup_33_refuted : forall (A : Type) (table : list A) (a b c : list Z), length a = 32%nat ->
  vector_to_machine table (a ++ b) = vector_to_machine table (a ++ c).
Proof. exact @vector_to_machine_blind. Qed.
Print Assumptions C03_lookup_33_refuted.
Example C03_lookup_33_ex : length (repeat 1 32) = 32%nat /\ spin_string false (repeat 1 32 ++ [1]) /\ spin_string false (repeat 1 32 ++ [-1]) /\
  repeat 1 32 ++ [1] <> repeat 1 32 ++ [-1].
Proof.
  split; [reflexivity|]. split; [|split].
  - apply Forall_app. split; [apply Forall_forall; intros x Hx; apply repeat_spec in Hx; right; exact Hx|constructor; [right; reflexivity|constructor]].
  - apply Forall_app. split; [apply Forall_forall; intros x Hx; apply repeat_spec in Hx; right; exact Hx|constructor; [left; reflexivity|constructor]].
  - intros E. apply app_inv_head in E. discriminate E.
Qed.

(** C03: a batch size that does not divide 2^n is an error, never a wrong table. *)
Theorem C03_nondividing_batch_fails : forall (A : Type) (zero : A) (model : list Z -> A) (n batch : nat),
  (2 ^ n mod (Nat.min batch (2 ^ n)) <> 0)%nat -> (0 < batch)%nat ->
  to_log_wave_function_vector zero model n batch = Err ShapeError.
Proof. exact @tabulate_err. Qed.
Print Assumptions C03_nondividing_batch_fails.
Example C03_nondividing_batch_fails_ex : (2 ^ 3 mod (Nat.min 3 (2 ^ 3)) <> 0)%nat.
Proof. vm_compute; lia. Qed.

(** C03: a batch size of zero raises too, whatever the model. *)
Theorem C03_zero_batch_fails : forall (A : Type) (zero : A) (model : list Z -> A) (n : nat), to_log_wave_function_vector zero model n 0 = Err ValueError.
Proof. intros. unfold to_log_wave_function_vector. now rewrite (proj2 (Nat.ltb_ge _ _) (Nat.le_0_l _)). Qed.
Print Assumptions C03_zero_batch_fails.
Example C03_zero_batch_fails_ex : to_log_wave_function_vector 0 (fold_right Z.add 0) 3 0 = Err ValueError. Proof. reflexivity. Qed.
