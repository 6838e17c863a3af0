(** What the statements about complex convolutions (C78) refer to: the sum that defines a convolution, and how far it reaches. *)
From Coq Require Import Ascii String List ZArith Bool Arith Reals.
From Verif Require Import Base Cplx ComplexConvModel.
Import ListNotations.
Local Open Scope string_scope.
Local Open Scope list_scope.
Local Open Scope nat_scope.

(** Sum over all index lists below [sizes]. *)
Fixpoint sum_over (sizes : list nat) (f : list nat -> C) : C :=
  match sizes with
  | [] => f []
  | n :: r => Csum (fun i => sum_over r (fun l => f (i :: l))) (range n)
  end.

(** The pixel at an integer position, zero outside of the image. *)
Fixpoint within (sizes : list nat) (p : list Z) : bool :=
  match sizes, p with
  | [], [] => true
  | n :: sizes', i :: p' => (0 <=? i)%Z && (i <? Z.of_nat n)%Z && within sizes' p'
  | _, _ => false
  end.
Definition value_at (x : image C) (b : nat) (p : list Z) (c : nat) : C :=
  if within (sizes x) p then pixel x b (map Z.to_nat p) c else C0.

(** Position read by tap [k] for the output at [o]: stride times o plus dilation times k, minus the zeros put before. *)
Fixpoint read_position (strides dilations before o k : list nat) : list Z :=
  match strides, dilations, before, o, k with
  | s :: strides', d :: dilations', a :: before', i :: o', j :: k' =>
      (Z.of_nat i * Z.of_nat s + Z.of_nat j * Z.of_nat d - Z.of_nat a)%Z :: read_position strides' dilations' before' o' k'
  | _, _, _, _, _ => []
  end.

(** The complex convolution. *)
Definition convolved (x : image C) (w : filter C) (strides dilations before : list nat) (b : nat) (o : list nat) (f : nat) : C :=
  sum_over (ksizes w) (fun k =>
    Csum (fun c => (value_at x b (read_position strides dilations before o k) c * tap w k c f)%C) (range (inputs w))).

(** One axis: [n] pixels, a kernel of size k with stride s and dilation d give [out] outputs when [before] zeros are put before. Valid: as many as fit. Same:
    one for every s pixels, with half of the missing pixels before. *)
Definition axis (same : bool) (n k s d out before : nat) : Prop :=
  0 < out /\
  if same then
    ((Z.of_nat out - 1) * Z.of_nat s < Z.of_nat n <= Z.of_nat out * Z.of_nat s)%Z /\
    Z.of_nat before = (Z.max 0 ((Z.of_nat out - 1) * Z.of_nat s + (Z.of_nat k - 1) * Z.of_nat d + 1 - Z.of_nat n) / 2)%Z
  else
    ((Z.of_nat k - 1) * Z.of_nat d + (Z.of_nat out - 1) * Z.of_nat s < Z.of_nat n <= (Z.of_nat k - 1) * Z.of_nat d + Z.of_nat out * Z.of_nat s)%Z /\
    before = 0.
Inductive axes (same : bool) : list nat -> list nat -> list nat -> list nat -> list nat -> list nat -> Prop :=
| no_axis : axes same [] [] [] [] [] []
| one_more n k s d out before ns ks ss ds outs befores :
    axis same n k s d out before -> axes same ns ks ss ds outs befores ->
    axes same (n :: ns) (k :: ks) (s :: ss) (d :: ds) (out :: outs) (before :: befores).

(** Sizes for which a convolution is defined: positive, and the kernel fits unless zeros are added. *)
Inductive fitting (same : bool) : list nat -> list nat -> list nat -> list nat -> Prop :=
| fit_no_axis : fitting same [] [] [] []
| fit_one_more n k s d ns ks ss ds :
    0 < n -> 0 < k -> 0 < s -> 0 < d -> (same = true \/ (k - 1) * d < n) ->
    fitting same ns ks ss ds -> fitting same (n :: ns) (k :: ks) (s :: ss) (d :: ds).

(** Strides and dilations which tensorflow.nn.convolution accepts: not both larger than one. *)
Definition compatible (strides dilations : list nat) : Prop :=
  Forall (eq 1) strides \/ Forall (eq 1) dilations.

(** Result [r] is the convolution of x with w. *)
Definition is_convolution (same : bool) (x : image C) (w : filter C) (strides dilations : list nat) (r : image C) : Prop :=
  exists before,
    axes same (sizes x) (ksizes w) strides dilations (sizes r) before /\
    batch r = batch x /\ channels r = outputs w /\
    forall b o f, Forall2 lt o (sizes r) -> pixel r b o f = convolved x w strides dilations before b o f.

(** Integers, and what they denote: python integers, booleans, integers of numpy. *)
Inductive denotes : scalar -> Z -> Prop :=
| denotes_int z : denotes (Int z) z
| denotes_bool b : denotes (Bool b) (Z.b2z b)
| denotes_numpy z : denotes (NumpyInt z) z.
(** An argument that names the tuple of integers [l]: one python integer or boolean for all axes, or a list of integers. *)
Inductive names (n : nat) : argument -> list Z -> Prop :=
| names_int z : names n (Single (Int z)) (repeat z n)
| names_bool b : names n (Single (Bool b)) (repeat (Z.b2z b) n)
| names_list t l : Forall2 denotes t l -> length t = n -> names n (Iterable t) l.

(** Two strings that differ only in the case of the letters A to Z. *)
Definition upper_letters : list ascii := list_ascii_of_string "ABCDEFGHIJKLMNOPQRSTUVWXYZ".
Definition lower_letters : list ascii := list_ascii_of_string "abcdefghijklmnopqrstuvwxyz".
Definition same_letter (c d : ascii) : Prop := c = d \/ In (c, d) (combine upper_letters lower_letters).
Definition up_to_case (s t : string) : Prop := Forall2 same_letter (list_ascii_of_string s) (list_ascii_of_string t).

(** The text of an integer: white space, a sign, groups of digits joined by underscores, white space. *)
Definition white_space : list ascii := map ascii_of_nat [9; 10; 11; 12; 13; 28; 29; 30; 31; 32].
Definition decimal_digits : list ascii := list_ascii_of_string "0123456789".
Fixpoint join (groups : list (list ascii)) : list ascii :=
  match groups with
  | [] => []
  | [g] => g
  | g :: r => g ++ "_"%char :: join r
  end.
Definition integer_text (s : string) : Prop :=
  exists before sign groups after,
    list_ascii_of_string s = before ++ sign ++ join groups ++ after /\
    Forall (fun c => In c white_space) before /\ Forall (fun c => In c white_space) after /\
    In sign [[]; ["+"%char]; ["-"%char]] /\ groups <> [] /\ Forall (fun g => g <> [] /\ Forall (fun c => In c decimal_digits) g) groups.

(** A python or numpy integer. *)
Definition is_integer (v : scalar) : bool := match v with Int _ | Bool _ | NumpyInt _ => true | _ => false end.

(** The strides or dilations over the image, among those over the four axes; none over the batch and the channels. *)
Inductive over_image : data_format -> quad -> list nat -> Prop :=
| channels_last a b : over_image NHWC (1, a, b, 1) [a; b]
| channels_first a b : over_image NCHW (1, 1, a, b) [a; b].
(** The sizes of the image and the strides are those of the kernel: the test of tensorflow_ops.py:44-45. *)
Definition coincide (data filters : quad) (strides : quad) : bool :=
  let '(_, d1, d2, d3) := data in let '(f0, f1, f2, _) := filters in let '(_, s1, s2, _) := strides in
  ((d1 =? f0) && (d2 =? f1) && (d3 =? f2)) && (s1 =? f0) && (s2 =? f1).
