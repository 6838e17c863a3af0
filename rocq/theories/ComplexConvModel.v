(** Model of the convolutions of layers/complex: the arguments of the layers of conv.py, their kernels and values in any number of dimensions, and the two
    convolution helpers of tensorflow_ops.py, conv2d_complex and extract_complex_image_patches. *)
From Coq Require Import Ascii String List ZArith Bool Arith Reals.
From Verif Require Import Base Cplx IsingModel OrderingModel.
Import ListNotations.
Local Open Scope string_scope.
Local Open Scope list_scope.
Local Open Scope nat_scope.

(** * Arguments *)

(** Python values given as kernel_size, strides or dilation_rate. [Float] is a finite float: infinities (OverflowError) are left out. [Other]: None, a list,
    any object that int() rejects with TypeError. *)
Inductive scalar := Int (z : Z) | Bool (b : bool) | NumpyInt (z : Z) | Float (x : R) | NaN | Str (s : string) | Other.
(** A single value or an iterable of values (list, tuple, array). *)
Inductive argument := Single (v : scalar) | Iterable (l : list scalar).

(** int(s) of a string: white space around, a sign, digits with single underscores between them. Only ASCII. *)
Definition is_space (c : ascii) : bool := let n := nat_of_ascii c in (n =? 32) || ((9 <=? n) && (n <=? 13)) || ((28 <=? n) && (n <=? 31)).
Definition is_digit (c : ascii) : bool := let n := nat_of_ascii c in (48 <=? n) && (n <=? 57).
Fixpoint skip_spaces (l : list ascii) : list ascii := match l with c :: r => if is_space c then skip_spaces r else l | [] => [] end.
Definition strip (l : list ascii) : list ascii := rev (skip_spaces (rev (skip_spaces l))).
Fixpoint digits (after_digit : bool) (l : list ascii) : bool :=
  match l with
  | [] => after_digit
  | c :: r => if is_digit c then digits true r else if after_digit && Ascii.eqb c "_" then digits false r else false
  end.
Definition is_integer_literal (s : string) : bool :=
  match strip (list_ascii_of_string s) with
  | c :: r => if Ascii.eqb c "+" || Ascii.eqb c "-" then digits false r else digits false (c :: r)
  | [] => false
  end.
(** conv.py:38 [int(single_value)]: only whether it raises matters. *)
Definition int_call (v : scalar) : res unit :=
  match v with
  | Int _ | Bool _ | NumpyInt _ | Float _ => Ok tt
  | NaN => Err ValueError
  | Str s => if is_integer_literal s then Ok tt else Err ValueError
  | Other => Err TypeError
  end.

(** conv.py:29 [tuple(value)]: a string is an iterable of one letter strings, numbers are not iterable. *)
Definition tuple_call (v : argument) : res (list scalar) :=
  match v with
  | Iterable l => Ok l
  | Single (Str s) => Ok (map (fun c => Str (String c "")) (list_ascii_of_string s))
  | Single _ => Err TypeError
  end.

(** conv.py:36-44: ValueError is raised again with a message, other exceptions pass. *)
Fixpoint check_elements (l : list scalar) : res unit :=
  match l with
  | [] => Ok tt
  | v :: r => match int_call v with Ok _ => check_elements r | Err ValueError => Err ValueError | Err e => Err e end
  end.

(** conv.py:11-45 [normalize_tuple]. [isinstance(value, int)] holds for bools, not for numpy integers. *)
Definition normalize_tuple (value : argument) (n : nat) : res (list scalar) :=
  match value with
  | Single (Int z) => Ok (repeat (Int z) n)
  | Single (Bool b) => Ok (repeat (Bool b) n)
  | _ =>
      match tuple_call value with
      | Err TypeError => Err ValueError
      | Err e => Err e
      | Ok value_tuple =>
          if length value_tuple =? n then do _ <- check_elements value_tuple ; Ok value_tuple else Err ValueError
      end
  end.

(** [str.lower], for ASCII letters. *)
Definition lower_ascii (c : ascii) : ascii :=
  let n := nat_of_ascii c in if (65 <=? n) && (n <=? 90) then ascii_of_nat (n + 32) else c.
Fixpoint lower (s : string) : string := match s with EmptyString => EmptyString | String c r => String (lower_ascii c) (lower r) end.
(** conv.py:48-54 [normalize_padding]; a value without the method lower raises AttributeError. *)
Definition normalize_padding (value : argument) : res string :=
  match value with
  | Single (Str s) =>
      let padding := lower s in
      if existsb (String.eqb padding) ["valid"; "same"] then Ok padding else Err ValueError
  | _ => Err AttributeError
  end.

(** * Real convolutions *)

(** A batch of images with channels last, and the kernel of a convolution: sizes, input and output channels, values. *)
Record image (T : Type) := { batch : nat; sizes : list nat; channels : nat; pixel : nat -> loc -> nat -> T }.
Arguments batch {T}. Arguments sizes {T}. Arguments channels {T}. Arguments pixel {T}.
Record filter (T : Type) := { ksizes : list nat; inputs : nat; outputs : nat; tap : loc -> nat -> nat -> T }.
Arguments ksizes {T}. Arguments inputs {T}. Arguments outputs {T}. Arguments tap {T}.

(** Sizes according to the documentation of tensorflow.nn.convolution. *)
Definition effective_size (k d : nat) : nat := (k - 1) * d + 1.
Definition same_size (n s : nat) : nat := (n + s - 1) / s.
Definition valid_size (n k s d : nat) : nat := (n - (effective_size k d - 1) + s - 1) / s.
Definition same_padding (n k s d : nat) : nat * nat :=
  let total := (same_size n s - 1) * s + effective_size k d - n in (total / 2, total - total / 2).

(** tensorflow.pad with zeros. *)
Fixpoint inside (before sizes : list nat) (l : loc) : option loc :=
  match before, sizes, l with
  | b :: before', n :: sizes', i :: l' =>
      if (b <=? i) && (i <? b + n) then option_map (cons (i - b)) (inside before' sizes' l') else None
  | _, _, _ => Some []
  end.
Definition zero_pad {T} (zero : T) (pads : list (nat * nat)) (x : image T) : image T :=
  {| batch := batch x; channels := channels x;
     sizes := map2 (fun n (p : nat * nat) => fst p + n + snd p) (sizes x) pads;
     pixel := fun b l c => match inside (map fst pads) (sizes x) l with Some l' => pixel x b l' c | None => zero end |}.

Fixpoint map4 {A} (f : nat -> nat -> nat -> nat -> A) (a b c d : list nat) : list A :=
  match a, b, c, d with
  | x :: a', y :: b', z :: c', w :: d' => f x y z w :: map4 f a' b' c' d'
  | _, _, _, _ => []
  end.

(** tensorflow.nn.convolution and tensorflow.nn.conv2d of real numbers, channels last, cross-correlation. The kernel must have one size, stride and
    dilation for each axis and the input channels of the image; strides are positive; a valid convolution needs the kernel to fit. nn.convolution
    ([together] = false) rejects strides with dilations. Keras' conv1d/2d/3d call nn.convolution. *)
Definition convolution (together same : bool) (strides dilations : list nat) (x : image R) (w : filter R) : res (image R) :=
  if negb ((length (ksizes w) =? length (sizes x)) && (length strides =? length (sizes x)) && (length dilations =? length (sizes x))) then Err ValueError
  else if negb (inputs w =? channels x) then Err ValueError
  else if negb (forallb (Nat.ltb 0) strides && forallb (Nat.ltb 0) dilations) then Err ValueError
  else if negb together && existsb (Nat.ltb 1) strides && existsb (Nat.ltb 1) dilations then Err ValueError
  else
    let padded := if same then zero_pad 0%R (map4 (fun n k s d => same_padding n k s d) (sizes x) (ksizes w) strides dilations) x else x in
    let fits := forallb (fun b => b) (map2 Nat.leb (map2 effective_size (ksizes w) dilations) (sizes padded)) in
    if negb fits then Err ValueError else
    Ok {| batch := batch x;
          sizes := map4 (fun n k s d => valid_size n k s d) (sizes padded) (ksizes w) strides dilations;
          channels := outputs w;
          pixel := fun b o f =>
            Rsum (fun k => Rsum (fun c =>
              (pixel padded b (map2 Nat.add (map2 Nat.mul o strides) (map2 Nat.mul k dilations)) c * tap w k c f)%R)
              (range (channels x))) (raster (ksizes w)) |}.

(** * Complex convolutions *)

Definition map_image {T U} (g : T -> U) (x : image T) : image U :=
  {| batch := batch x; sizes := sizes x; channels := channels x; pixel := fun b l c => g (pixel x b l c) |}.
Definition map_filter {T U} (g : T -> U) (w : filter T) : filter U :=
  {| ksizes := ksizes w; inputs := inputs w; outputs := outputs w; tap := fun k c f => g (tap w k c f) |}.
Definition zip_image {T U V} (g : T -> U -> V) (x : image T) (y : image U) : image V :=
  {| batch := batch x; sizes := sizes x; channels := channels x; pixel := fun b l c => g (pixel x b l c) (pixel y b l c) |}.

(** tensorflow_ops.py:7-13 [keras_conv_to_complex_conv]; tensorflow_ops.py:19-32 [general_conv2d] is the same with tensorflow.nn.conv2d. *)
Definition keras_conv_to_complex_conv (keras_conv : image R -> filter R -> res (image R)) (x : image C) (kernel : filter C) : res (image C) :=
  do ac <- keras_conv (map_image Re x) (map_filter Re kernel) ;
  do bd <- keras_conv (map_image Im x) (map_filter Im kernel) ;
  do ad <- keras_conv (map_image Re x) (map_filter Im kernel) ;
  do bc <- keras_conv (map_image Im x) (map_filter Re kernel) ;
  Ok (zip_image (fun re im => (re, im)) (zip_image Rminus ac bd) (zip_image Rplus ad bc)).

(** * The layers *)

(** conv.py:59-74 [_ComplexConv.__init__]; the initializers are left out. *)
Record complex_conv := {
  rank : nat; filters : nat; kernel_size : list scalar; strides : list scalar; padding : string; dilation_rate : list scalar;
  use_bias : bool; activation : option (C -> C)
}.
Definition complex_conv_init (rank filters : nat) (kernel_size strides padding dilation_rate : argument) (use_bias : bool) (activation : option (C -> C))
  : res complex_conv :=
  do kernel_size' <- normalize_tuple kernel_size rank ;
  do strides' <- normalize_tuple strides rank ;
  do padding' <- normalize_padding padding ;
  do dilation_rate' <- normalize_tuple dilation_rate rank ;
  Ok {| rank := rank; filters := filters; kernel_size := kernel_size'; strides := strides'; padding := padding'; dilation_rate := dilation_rate';
        use_bias := use_bias; activation := activation |}.
(** conv.py:110-137: the constructors of ComplexConv1D, ComplexConv2D and ComplexConv3D and the default values of conv.py:59-61. *)
Definition default_strides : argument := Single (Int 1).
Definition default_padding : argument := Single (Str "valid").
Definition default_dilation_rate : argument := Single (Int 1).
Definition complex_conv_1d := complex_conv_init 1.
Definition complex_conv_2d := complex_conv_init 2.
Definition complex_conv_3d := complex_conv_init 3.

(** A tuple used as shape or stride: non negative integers; a negative one raises ValueError in tensorflow. What tensorflow makes of floats and strings is
    not modelled: they count as errors. *)
Definition as_size (v : scalar) : res nat :=
  match v with
  | Int z | NumpyInt z => if (z <? 0)%Z then Err ValueError else Ok (Z.to_nat z)
  | Bool b => Ok (if b then 1 else 0)
  | _ => Err TypeError
  end.
Definition as_sizes (l : list scalar) : res (list nat) := mapM as_size l.

(** conv.py:81-91 [_ComplexConv.build]: the shapes of the kernel and of the bias for an input with [input_channels] channels. *)
Definition build (L : complex_conv) (input_channels : nat) : res (list nat * option (list nat)) :=
  do kernel_size <- as_sizes (kernel_size L) ;
  Ok (kernel_size ++ [input_channels; filters L], if use_bias L then Some [filters L] else None).

(** conv.py:93-107 [_ComplexConv.call] with the built kernel values [kernel] and bias [bias]. For rank 1 the dilation is passed as an int, for the others as
    a tuple: nn.convolution treats them alike. *)
Definition call (L : complex_conv) (kernel : loc -> nat -> nat -> C) (bias : nat -> C) (x : image C) : res (image C) :=
  do shapes <- build L (channels x) ;
  do kernel_size <- as_sizes (kernel_size L) ;
  do strides <- as_sizes (strides L) ;
  do dilation_rate <- as_sizes (dilation_rate L) ;
  do res <- keras_conv_to_complex_conv (convolution false (String.eqb (padding L) "same") strides dilation_rate) x
              {| ksizes := kernel_size; inputs := channels x; outputs := filters L; tap := kernel |} ;
  let res := match snd shapes with
             | Some _ => {| batch := batch res; sizes := sizes res; channels := channels res; pixel := fun b l f => (pixel res b l f + bias f)%C |}
             | None => res
             end in
  match activation L with
  | Some g => Ok (map_image g res)
  | None => Ok res
  end.

(** deepar/graph_analysis/convolutional_topology.py:15-19 [ConvolutionalTopology.__init__]: whether the fast sampler accepts the layer. *)
Definition topology_init (L : complex_conv) : res unit := if String.eqb (padding L) "valid" then Ok tt else Err GenericException.

(** * conv2d_complex *)

(** A tensor with four axes. *)
Record tensor4 (T : Type) := { dims : nat * nat * nat * nat; at4 : nat -> nat -> nat -> nat -> T }.
Arguments dims {T}. Arguments at4 {T}.
Definition quad := (nat * nat * nat * nat)%type.

Inductive data_format := NHWC | NCHW.
(** The image that a tensor means in a data format, and back. *)
Definition to_image {T} (format : data_format) (t : tensor4 T) : image T :=
  let '(d0, d1, d2, d3) := dims t in
  match format with
  | NHWC => {| batch := d0; sizes := [d1; d2]; channels := d3; pixel := fun b l c => at4 t b (nth 0 l 0) (nth 1 l 0) c |}
  | NCHW => {| batch := d0; sizes := [d2; d3]; channels := d1; pixel := fun b l c => at4 t b c (nth 0 l 0) (nth 1 l 0) |}
  end.
Definition of_image {T} (format : data_format) (x : image T) : tensor4 T :=
  let h := nth 0 (sizes x) 0 in let w := nth 1 (sizes x) 0 in
  match format with
  | NHWC => {| dims := (batch x, h, w, channels x); at4 := fun b i j c => pixel x b [i; j] c |}
  | NCHW => {| dims := (batch x, channels x, h, w); at4 := fun b c i j => pixel x b [i; j] c |}
  end.
Definition to_filter {T} (t : tensor4 T) : filter T :=
  let '(f0, f1, f2, f3) := dims t in
  {| ksizes := [f0; f1]; inputs := f2; outputs := f3; tap := fun k c f => at4 t (nth 0 k 0) (nth 1 k 0) c f |}.

(** The spatial entries of strides and dilations; batch and channel entries have to be 1. *)
Definition spatial (format : data_format) (q : quad) : res (list nat) :=
  let '(q0, q1, q2, q3) := q in
  match format with
  | NHWC => if (q0 =? 1) && (q3 =? 1) then Ok [q1; q2] else Err ValueError
  | NCHW => if (q0 =? 1) && (q1 =? 1) then Ok [q2; q3] else Err ValueError
  end.

(** tensorflow_ops.py:19-32 [general_conv2d]. *)
Definition general_conv2d (data filters : tensor4 C) (strides : quad) (same : bool) (format : data_format) (dilations : quad) : res (tensor4 C) :=
  do s <- spatial format strides ;
  do d <- spatial format dilations ;
  do r <- keras_conv_to_complex_conv (convolution true same s d) (to_image format data) (to_filter filters) ;
  Ok (of_image format r).

(** tensorflow.reshape of the last three axes of sizes (n1, n2, n3) to one axis, row-major: the indices of entry i. *)
Definition split3 (n2 n3 i : nat) : nat * nat * nat := (i / (n2 * n3), (i / n3) mod n2, i mod n3).

(** tensorflow_ops.py:34-40 [simplified_conv2d]. *)
Definition simplified_conv2d (data filters : tensor4 C) : tensor4 C :=
  let '(d0, d1, d2, d3) := dims data in
  let '(f0, f1, f2, f3) := dims filters in
  let reshaped_data := fun b i => let '(h, w, c) := split3 d2 d3 i in at4 data b h w c in
  let reshaped_filters := fun i f => let '(h, w, c) := split3 f1 f2 i in at4 filters h w c f in
  {| dims := (d0, 1, 1, f3);
     at4 := fun b _ _ f => Csum (fun i => (reshaped_data b i * reshaped_filters i f)%C) (range (d1 * d2 * d3)) |}.

(** tensorflow_ops.py:16-48 [conv2d_complex]. [known]: whether the last three sizes of data are known when the graph is built; an unknown size differs from
    every size. *)
Definition conv2d_complex (known : bool) (data filters : tensor4 C) (strides : quad) (same : bool) (format : data_format) (dilations : quad)
  : res (tensor4 C) :=
  let '(d0, d1, d2, d3) := dims data in
  let '(f0, f1, f2, f3) := dims filters in
  let '(s0, s1, s2, s3) := strides in
  if known && ((d1 =? f0) && (d2 =? f1) && (d3 =? f2)) && (s1 =? f0) && (s2 =? f1) then Ok (simplified_conv2d data filters)
  else general_conv2d data filters strides same format dilations.

(** * extract_complex_image_patches *)

(** tensorflow.extract_image_patches of real images, channels last: patch values ordered by row, column and channel. *)
Definition extract_image_patches (kh kw sh sw rh rw : nat) (same : bool) (t : tensor4 R) : res (tensor4 R) :=
  let x := to_image NHWC t in
  let ks := [kh; kw] in let ss := [sh; sw] in let rs := [rh; rw] in
  let padded := if same then zero_pad 0%R (map4 (fun n k s d => same_padding n k s d) (sizes x) ks ss rs) x else x in
  if negb (forallb (fun b => b) (map2 Nat.leb (map2 effective_size ks rs) (sizes padded))) then Err ValueError else
  let out := map4 (fun n k s d => valid_size n k s d) (sizes padded) ks ss rs in
  Ok {| dims := (batch x, nth 0 out 0, nth 1 out 0, kh * kw * channels x);
        at4 := fun b i j p =>
          let '(h, w, c) := split3 kw (channels x) p in pixel padded b [i * sh + h * rh; j * sw + w * rw] c |}.

(** tensorflow.math.floormod of real numbers. *)
Definition floormod (x y : R) : R := (x - IZR (Int_part (x / y)) * y)%R.

(** tensorflow_ops.py:57-66 [extract_complex_image_patches]. *)
Definition map4d {T U} (g : T -> U) (t : tensor4 T) : tensor4 U := {| dims := dims t; at4 := fun a b c d => g (at4 t a b c d) |}.
Definition extract_complex_image_patches (kh kw sh sw rh rw : nat) (same clip_imag_part : bool) (images : tensor4 C) : res (tensor4 C) :=
  do real_patches <- extract_image_patches kh kw sh sw rh rw same (map4d Re images) ;
  do imag_patches <- extract_image_patches kh kw sh sw rh rw same (map4d Im images) ;
  let imag_patches := if clip_imag_part then map4d (fun y => floormod y (2 * PI)) imag_patches else imag_patches in
  Ok {| dims := dims real_patches; at4 := fun a b c d => (at4 real_patches a b c d, at4 imag_patches a b c d) |}.
