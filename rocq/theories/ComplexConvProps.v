(** C78: the complex convolution layers and the convolution helpers of tensorflow_ops.py. *)
From Coq Require Import Ascii String List ZArith Bool Arith Reals Lia Lra.
From Verif Require Import Base Cplx IsingModel OrderingModel ComplexConvModel ComplexConvSpec ComplexConvProofs.
Import ListNotations.
Local Open Scope string_scope.
Local Open Scope list_scope.
Local Open Scope nat_scope.

(** C78: a layer made with integers (one for all axes, or one for each) and padding valid or same in any case computes the complex convolution, in any number
    of dimensions, then adds the bias and applies the activation. *)
Theorem C78_layer : forall rank f kernel_size strides dilation_rate ks ss ds pad same use_bias act,
  names rank kernel_size (map Z.of_nat ks) -> names rank strides (map Z.of_nat ss) -> names rank dilation_rate (map Z.of_nat ds) ->
  up_to_case pad (if same : bool then "same" else "valid") ->
  exists L, complex_conv_init rank f kernel_size strides (Single (Str pad)) dilation_rate use_bias act = Ok L /\
    (forall n, build L n = Ok (ks ++ [n; f], if use_bias then Some [f] else None)) /\
    topology_init L = (if same then Err GenericException else Ok tt) /\
    forall kernel bias (x : image C), fitting same (sizes x) ks ss ds -> compatible ss ds ->
      exists r c, call L kernel bias x = Ok r /\
        is_convolution same x {| ksizes := ks; inputs := channels x; outputs := f; tap := kernel |} ss ds c /\
        batch r = batch x /\ sizes r = sizes c /\ channels r = f /\
        forall b o g, Forall2 lt o (sizes r) ->
          pixel r b o g = match act with Some h => h | None => fun z => z end (if use_bias then (pixel c b o g + bias g)%C else pixel c b o g).
Proof.
  intros rank f ka sa da ks ss ds pad same ub act K S D E.
  assert (E' : lower pad = (if same then "same" else "valid")) by (apply lower_case; [|exact E]; destruct same; apply Forall_forall; intros c Hc; vm_compute in Hc |- *; tauto).
  destruct (layer_ok rank f ka sa (Single (Str pad)) da ub act _ _ _ pad same K S D eq_refl E') as [L [EL [EK [ES [ED [EP [EV [EF [EU EA]]]]]]]]].
  exists L. split; [exact EL|]. split; [intros n; unfold build; rewrite (as_sizes_ints _ _ EK), EF, EU; reflexivity|].
  split; [unfold topology_init; rewrite EV; destruct same; reflexivity|].
  intros kernel bias x F C. destruct (call_ok L ks ss ds kernel bias x same EK ES ED EP F C) as [r [c H]]. rewrite EF, EU, EA in H. exists r, c. exact H.
Qed.
Print Assumptions C78_layer.

(** A two dimensional layer with kernel 3, stride 2 and padding 'SAME' on images of 4 by 3 pixels meets the hypotheses; its output has 2 by 2 pixels. *)
Example C78_layer_case :
  names 2 (Single (Int 3)) (map Z.of_nat [3; 3]) /\ names 2 (Iterable [Int 2; Int 2]) (map Z.of_nat [2; 2]) /\ up_to_case "SAME" "same" /\
  fitting true [4; 3] [3; 3] [2; 2] [1; 1] /\ compatible [2; 2] [1; 1] /\ axes true [4; 3] [3; 3] [2; 2] [1; 1] [2; 2] [0; 1].
Proof.
  split; [apply (names_int 2 3)|]. split; [apply names_list; repeat constructor|].
  split; [unfold up_to_case; cbn; repeat (constructor; [right; cbn; tauto|]); constructor|].
  split; [repeat (constructor; try lia; auto)|]. split; [right; repeat constructor|].
  repeat (constructor; [unfold axis; cbn; repeat (split; [lia|]); reflexivity|]). constructor.
Qed.

(** C78: with the defaults, ComplexConv1D, ComplexConv2D and ComplexConv3D slide the kernel over all positions where it fits, one by one, in one, two and three
    dimensions. *)
Theorem C78_defaults : forall k f use_bias act, 0 < k ->
  Forall2 (fun d (layer : nat -> argument -> argument -> argument -> argument -> bool -> option (C -> C) -> res complex_conv) =>
    exists L, layer f (Single (Int (Z.of_nat k))) default_strides default_padding default_dilation_rate use_bias act = Ok L /\ topology_init L = Ok tt /\
      forall kernel bias (x : image C), length (sizes x) = d -> Forall (le k) (sizes x) ->
        exists r c, call L kernel bias x = Ok r /\ sizes r = map (fun n => n - k + 1) (sizes x) /\
          is_convolution false x {| ksizes := repeat k d; inputs := channels x; outputs := f; tap := kernel |} (repeat 1 d) (repeat 1 d) c /\
          forall b o g, Forall2 lt o (sizes r) ->
            pixel r b o g = match act with Some h => h | None => fun z => z end (if use_bias then (pixel c b o g + bias g)%C else pixel c b o g))
    [1; 2; 3] [complex_conv_1d; complex_conv_2d; complex_conv_3d].
Proof.
  intros k f ub act Hk.
  assert (G : forall d, exists L, complex_conv_init d f (Single (Int (Z.of_nat k))) default_strides default_padding default_dilation_rate ub act = Ok L /\ topology_init L = Ok tt /\
      forall kernel bias (x : image C), length (sizes x) = d -> Forall (le k) (sizes x) ->
        exists r c, call L kernel bias x = Ok r /\ sizes r = map (fun n => n - k + 1) (sizes x) /\
          is_convolution false x {| ksizes := repeat k d; inputs := channels x; outputs := f; tap := kernel |} (repeat 1 d) (repeat 1 d) c /\
          forall b o g, Forall2 lt o (sizes r) ->
            pixel r b o g = match act with Some h => h | None => fun z => z end (if ub then (pixel c b o g + bias g)%C else pixel c b o g)).
  { intros d.
    assert (R : forall m, map Z.of_nat (repeat m d) = repeat (Z.of_nat m) d) by (intros m; induction d; cbn; congruence).
    destruct (C78_layer d f (Single (Int (Z.of_nat k))) default_strides default_dilation_rate (repeat k d) (repeat 1 d) (repeat 1 d) "valid" false ub act) as [L [E [_ [T H]]]];
      try (rewrite R; apply names_int).
    - unfold up_to_case. cbn. repeat (constructor; [now left|]). constructor.
    - exists L. split; [exact E|]. split; [exact T|]. intros kernel bias x Ex Fx.
      destruct (H kernel bias x) as [r [c [E1 [E2 [E3 [E4 [E5 E6]]]]]]].
      + clear - Hk Ex Fx. revert d Ex. induction Fx as [|n l Hn Fx IH]; intros [|d] Ex; cbn in Ex; try discriminate; cbn [repeat]; constructor; auto; try lia; right; lia.
      + left. clear. induction d; constructor; auto.
      + exists r, c. split; [exact E1|]. split; [|split; [exact E2|exact E6]].
        rewrite E4. destruct E2 as [before [A _]]. cbn [ksizes] in A. clear - A.
        remember (repeat k d) as ks eqn:EK. generalize (eq_refl (repeat 1 d)), A. generalize (repeat 1 d) at 1 3 as ss. intros ss ES A'. remember (repeat 1 d) as ds eqn:ED. revert d EK ES ED. clear A.
        induction A' as [|n k' s d' out b ns ks ss ds outs bs HA A IH]; intros [|d] EK ES ED; cbn in EK, ES, ED; try discriminate; [reflexivity|].
        injection EK as -> ->. injection ES as -> ->. injection ED as -> ->. cbn [map]. f_equal; [|now apply (IH d)].
        destruct HA as [HA1 [HA2 _]]. lia. }
  repeat (constructor; [apply G|]). constructor.
Qed.
Print Assumptions C78_defaults.

Example C78_defaults_case : 0 < 3 /\ length [5; 4] = 2 /\ Forall (le 3) [5; 4].
Proof. split; [lia|]. split; [reflexivity|]. repeat constructor; lia. Qed.

(** C78: strides together with dilations are rejected when the layer is called. *)
Theorem C78_strides_and_dilations : forall L ks ss ds kernel bias (x : image C),
  Forall2 denotes (kernel_size L) (map Z.of_nat ks) -> Forall2 denotes (strides L) (map Z.of_nat ss) -> Forall2 denotes (dilation_rate L) (map Z.of_nat ds) ->
  length ks = length (sizes x) -> length ss = length (sizes x) -> length ds = length (sizes x) ->
  Forall (lt 0) ss -> Forall (lt 0) ds -> Exists (lt 1) ss -> Exists (lt 1) ds ->
  call L kernel bias x = Err ValueError.
Proof.
  intros L ks ss ds kernel bias x EK ES ED L1 L2 L3 P1 P2 X1 X2. unfold call, build.
  rewrite (as_sizes_ints _ _ EK), (as_sizes_ints _ _ ES), (as_sizes_ints _ _ ED). cbn [bind].
  unfold keras_conv_to_complex_conv. rewrite strided_and_dilated_err; auto.
Qed.
Print Assumptions C78_strides_and_dilations.

Example C78_strides_and_dilations_case :
  exists L, complex_conv_2d 1 (Single (Int 2)) (Single (Int 2)) (Single (Str "valid")) (Single (Int 2)) true None = Ok L /\
    call L (fun _ _ _ => C1) (fun _ => C0) {| batch := 1; sizes := [5; 5]; channels := 1; pixel := fun _ _ _ => C1 |} = Err ValueError.
Proof. eexists. split; [reflexivity|]. apply (C78_strides_and_dilations _ [2; 2] [2; 2] [2; 2]); try reflexivity; repeat constructor. Qed.

(** C78: a negative kernel size is refused when the layer is built. *)
Theorem C78_negative_kernel_size : forall rank f kernel_size strides padding dilation_rate l use_bias act L n,
  names rank kernel_size l -> Exists (fun z => (z < 0)%Z) l ->
  complex_conv_init rank f kernel_size strides padding dilation_rate use_bias act = Ok L -> build L n = Err ValueError.
Proof.
  intros rank f ka sa pa da l ub act L n K X E. unfold complex_conv_init in E. destruct (tuple_ok _ _ _ K) as [t [ET F]]. rewrite ET in E. cbn [bind] in E.
  destruct (normalize_tuple sa rank); cbn [bind] in E; [|discriminate]. destruct (normalize_padding pa); cbn [bind] in E; [|discriminate].
  destruct (normalize_tuple da rank); cbn [bind] in E; [|discriminate]. injection E as <-. unfold build. cbn [kernel_size]. now rewrite (as_sizes_negative _ _ F X).
Qed.
Print Assumptions C78_negative_kernel_size.

Example C78_negative_kernel_size_case :
  is_ok (complex_conv_1d 1 (Single (Int (-3))) default_strides default_padding default_dilation_rate true None) = true.
Proof. reflexivity. Qed.

(** C78: int() accepts integers, finite floats and the strings that write an integer; it raises ValueError for other strings and nan, TypeError for the rest. *)
Definition int_accepts (v : scalar) : Prop :=
  match v with Int _ | Bool _ | NumpyInt _ | Float _ => True | Str s => integer_text s | NaN | Other => False end.

(** C78: normalize_tuple returns what it was given, [n] values that int() accepts; it raises ValueError, or TypeError for an iterable of the right length with a
    value that int() cannot take. *)
Theorem C78_normalize_tuple : forall a n,
  (forall l, names n a l -> exists t, normalize_tuple a n = Ok t /\ Forall2 denotes t l) /\
  (forall t, a = Iterable t -> length t = n -> Forall int_accepts t -> normalize_tuple a n = Ok t) /\
  match normalize_tuple a n with
  | Ok t => length t = n /\ Forall int_accepts t
  | Err e => e = ValueError \/ (e = TypeError /\ exists l, a = Iterable l /\ length l = n /\ In Other l)
  end.
Proof.
  intros a n.
  assert (G : forall v, int_call v = Ok tt <-> int_accepts v).
  { intros []; cbn [int_call int_accepts]; try tauto; try (split; [discriminate|contradiction]). rewrite <- integer_literal_spec.
    destruct (is_integer_literal s); split; congruence. }
  assert (GF : forall t, Forall (fun v => int_call v = Ok tt) t <-> Forall int_accepts t)
    by (intros t; split; intros H; (eapply Forall_impl; [|exact H]); intros v; apply G).
  split; [intros l; apply tuple_ok|]. split.
  - intros t -> E F. cbn [normalize_tuple tuple_call]. rewrite E, Nat.eqb_refl. apply GF in F. apply check_elements_ok in F. now rewrite F.
  - destruct (normalize_tuple a n) as [t|e] eqn:E; [|now apply tuple_error]. apply tuple_result in E. now rewrite <- GF.
Qed.
Print Assumptions C78_normalize_tuple.

Example C78_normalize_tuple_case :
  normalize_tuple (Single (Int 3)) 2 = Ok [Int 3; Int 3] /\ normalize_tuple (Iterable [Int 3; Int 5]) 2 = Ok [Int 3; Int 5] /\
  normalize_tuple (Iterable [Str " -1_0 "; Int 5]) 2 = Ok [Str " -1_0 "; Int 5] /\ normalize_tuple (Iterable [Int 3]) 2 = Err ValueError /\ normalize_tuple (Iterable [Str "a"; Int 5]) 2 = Err ValueError.
Proof. repeat split. Qed.

(** C78 fails for the documentation of normalize_tuple ("a tuple of n integers", "ValueError if something else was passed"): a string of two digits and
    fractions are returned as they are, an integer of numpy is refused, and None in a tuple raises TypeError. *)
Theorem C78_normalize_tuple_refuted :
  (forall s, length (list_ascii_of_string s) = 2 -> forallb is_digit (list_ascii_of_string s) = true ->
     exists t, normalize_tuple (Single (Str s)) 2 = Ok t /\ existsb is_integer t = false) /\
  (forall n x, 0 < n -> exists t, normalize_tuple (Iterable (repeat (Float x) n)) n = Ok t /\ existsb is_integer t = false) /\
  (forall n z, normalize_tuple (Single (NumpyInt z)) n = Err ValueError) /\
  (forall n l, length l = n -> Forall (fun v => int_call v = Ok tt) l -> normalize_tuple (Iterable (l ++ [Other])) (S n) = Err TypeError).
Proof.
  split; [|split; [|split]].
  - intros s E D. cbn [normalize_tuple tuple_call]. destruct (list_ascii_of_string s) as [|a [|b [|]]]; try discriminate.
    cbn [forallb] in D. rewrite !andb_true_iff in D. destruct D as [D1 [D2 _]].
    assert (G : forall c, is_digit c = true -> is_integer_literal (String c "") = true).
    { intros c Hc. unfold is_integer_literal. cbn [list_ascii_of_string].
      assert (NS : is_space c = false).
      { unfold is_digit, is_space in *. apply andb_true_iff in Hc. rewrite !Nat.leb_le in Hc.
        destruct (Nat.eqb_spec (nat_of_ascii c) 32); [lia|]. destruct (Nat.leb_spec (nat_of_ascii c) 13); [lia|].
        destruct (Nat.leb_spec (nat_of_ascii c) 31); [lia|]. now rewrite !andb_false_r. }
      assert (NP : Ascii.eqb c "+" || Ascii.eqb c "-" = false).
      { destruct (Ascii.eqb_spec c "+") as [->|]; [discriminate|]. destruct (Ascii.eqb_spec c "-") as [->|]; [discriminate|]. reflexivity. }
      unfold strip. cbn [skip_spaces]. rewrite NS. cbn [rev app skip_spaces]. rewrite NS. cbn [rev app]. rewrite NP. cbn [digits]. now rewrite Hc. }
    cbn [map length Nat.eqb check_elements int_call]. rewrite (G a D1), (G b D2). eexists. split; reflexivity.
  - intros n x Hn. exists (repeat (Float x) n). cbn [normalize_tuple tuple_call]. rewrite repeat_length, Nat.eqb_refl.
    replace (check_elements (repeat (Float x) n)) with (Ok tt) by (clear Hn; now induction n). split; [reflexivity|]. clear Hn. now induction n.
  - reflexivity.
  - intros n l E F. cbn [normalize_tuple tuple_call]. rewrite app_length, E. cbn [length]. replace (n + 1 =? S n) with true by (symmetry; apply Nat.eqb_eq; lia).
    replace (check_elements (l ++ [Other])) with (@Err unit TypeError); [reflexivity|]. clear E. induction F as [|v l Hv F IH]; cbn [app check_elements]; [reflexivity|].
    now rewrite Hv.
Qed.
Print Assumptions C78_normalize_tuple_refuted.

Example C78_normalize_tuple_refuted_case :
  normalize_tuple (Single (Str "33")) 2 = Ok [Str "3"; Str "3"] /\ normalize_tuple (Iterable [Float 0.5; Float 0.5]) 2 = Ok [Float 0.5; Float 0.5] /\
  normalize_tuple (Iterable [Int 3; Other]) 2 = Err TypeError.
Proof. repeat split. Qed.

(** C78: normalize_padding accepts valid and same in upper or lower case, and returns them in lower case; everything else is ValueError, or AttributeError
    when it is no string. *)
Theorem C78_normalize_padding : forall a,
  match normalize_padding a with
  | Ok p => (p = "valid" \/ p = "same") /\ exists s, a = Single (Str s) /\ up_to_case s p
  | Err e => match a with
             | Single (Str s) => e = ValueError /\ ~ up_to_case s "valid" /\ ~ up_to_case s "same"
             | _ => e = AttributeError
             end
  end.
Proof.
  assert (V : forall s, lower s = "valid" <-> up_to_case s "valid") by (apply lower_case; apply Forall_forall; intros c Hc; vm_compute in Hc |- *; tauto).
  assert (S : forall s, lower s = "same" <-> up_to_case s "same") by (apply lower_case; apply Forall_forall; intros c Hc; vm_compute in Hc |- *; tauto).
  intros a. destruct a as [[]|]; try reflexivity. rewrite padding_ok. destruct (String.eqb_spec (lower s) "valid") as [E|N1].
  - split; [now left|]. exists s. split; [reflexivity|]. now apply V.
  - destruct (String.eqb_spec (lower s) "same") as [E|N2]; [|rewrite <- V, <- S; auto]. split; [now right|]. exists s. split; [reflexivity|]. now apply S.
Qed.
Print Assumptions C78_normalize_padding.

Example C78_normalize_padding_case : normalize_padding (Single (Str "Valid")) = Ok "valid" /\ normalize_padding (Single Other) = Err AttributeError.
Proof. split; reflexivity. Qed.

(** C78 fails for the message of the error ("or causal for Conv1D"): no ComplexConv1D can be made with causal padding. *)
Theorem C78_causal_refuted : forall f kernel_size strides dilation_rate s use_bias act, up_to_case s "causal" ->
  exists e, complex_conv_1d f kernel_size strides (Single (Str s)) dilation_rate use_bias act = Err e.
Proof.
  intros f ka sa da s ub act E. assert (E' : lower s = "causal") by (apply lower_case; [|exact E]; apply Forall_forall; intros c Hc; vm_compute in Hc |- *; tauto).
  unfold complex_conv_1d, complex_conv_init. destruct (normalize_tuple ka 1); cbn [bind]; [|eauto].
  destruct (normalize_tuple sa 1); cbn [bind]; [|eauto]. rewrite padding_ok, E'. cbn [String.eqb Ascii.eqb Bool.eqb bind]. eauto.
Qed.
Print Assumptions C78_causal_refuted.

Example C78_causal_refuted_case :
  complex_conv_1d 8 (Single (Int 3)) default_strides (Single (Str "causal")) default_dilation_rate true None = Err ValueError /\
  is_ok (complex_conv_1d 8 (Single (Int 3)) default_strides default_padding default_dilation_rate true None) = true.
Proof. split; reflexivity. Qed.

(** C78: conv2d_complex computes the complex convolution, through either branch, whenever the shortcut is not taken or the channels are last and there is no
    dilation. *)
Theorem C78_conv2d : forall known same format data filters strides dilations ss ds,
  over_image format strides ss -> over_image format dilations ds ->
  fitting same (sizes (to_image format data)) (ksizes (to_filter filters)) ss ds -> inputs (to_filter filters) = channels (to_image format data) ->
  known = false \/ coincide (dims data) (dims filters) strides = false \/ (format = NHWC /\ dilations = (1, 1, 1, 1)) ->
  exists r, conv2d_complex known data filters strides same format dilations = Ok r /\
    is_convolution same (to_image format data) (to_filter filters) ss ds (to_image format r).
Proof.
  intros known same format data filters strides dilations ss ds S D. apply conv2d_ok; [destruct S|destruct D]; reflexivity.
Qed.
Print Assumptions C78_conv2d.

(** The shortcut is taken for an image of 2 by 3 pixels, with a kernel of this size used once. *)
Example C78_conv2d_case : let data := {| dims := (1, 2, 3, 2); at4 := fun _ i j c => RtoC (INR (6 * i + 2 * j + c)) |} in
  let filters := {| dims := (2, 3, 2, 4); at4 := fun _ _ _ _ => C1 |} in
  over_image NHWC (1, 2, 3, 1) [2; 3] /\ over_image NHWC (1, 1, 1, 1) [1; 1] /\
  fitting false (sizes (to_image NHWC data)) (ksizes (to_filter filters)) [2; 3] [1; 1] /\ inputs (to_filter filters) = channels (to_image NHWC data) /\
  coincide (dims data) (dims filters) (1, 2, 3, 1) = true.
Proof.
  cbv zeta. split; [constructor|]. split; [constructor|]. split; [|split; reflexivity].
  cbn. repeat (constructor; try lia; auto).
Qed.

(** C78: strides or dilations over the batch or the channels are refused, unless the shortcut is taken. *)
Theorem C78_conv2d_batch_and_channels : forall known same (format : data_format) data filters s0 s1 s2 s3 d0 d1 d2 d3,
  (if format then s0 <> 1 \/ s3 <> 1 \/ d0 <> 1 \/ d3 <> 1 else s0 <> 1 \/ s1 <> 1 \/ d0 <> 1 \/ d1 <> 1) ->
  known = false \/ coincide (dims data) (dims filters) (s0, s1, s2, s3) = false ->
  conv2d_complex known data filters (s0, s1, s2, s3) same format (d0, d1, d2, d3) = Err ValueError.
Proof.
  intros known same format data filters s0 s1 s2 s3 d0 d1 d2 d3 H K. unfold conv2d_complex, coincide in *.
  destruct (dims data) as [[[n0 n1] n2] n3] eqn:DD. destruct (dims filters) as [[[f0 f1] f2] f3] eqn:DF.
  replace (known && ((n1 =? f0) && (n2 =? f1) && (n3 =? f2)) && (s1 =? f0) && (s2 =? f1)) with false
    by (destruct K as [->|K]; [reflexivity|rewrite <- !andb_assoc in *; rewrite K, andb_false_r; reflexivity]).
  unfold general_conv2d, spatial. destruct format.
  - destruct (Nat.eqb_spec s0 1), (Nat.eqb_spec s3 1); cbn [andb bind]; try reflexivity. destruct (Nat.eqb_spec d0 1), (Nat.eqb_spec d3 1); cbn [andb bind]; try reflexivity. tauto.
  - destruct (Nat.eqb_spec s0 1), (Nat.eqb_spec s1 1); cbn [andb bind]; try reflexivity. destruct (Nat.eqb_spec d0 1), (Nat.eqb_spec d1 1); cbn [andb bind]; try reflexivity. tauto.
Qed.
Print Assumptions C78_conv2d_batch_and_channels.

Example C78_conv2d_batch_and_channels_case : coincide (1, 5, 5, 1) (2, 2, 1, 1) (2, 1, 1, 1) = false /\ 2 <> 1.
Proof. split; [reflexivity|lia]. Qed.

(** Evaluates a convolution of given numbers. *)
Ltac closed_convolution :=
  unfold convolved, value_at; cbn;
  repeat match goal with |- context [if ?c then _ else _] => let v := eval vm_compute in c in change c with v; cbv iota end;
  repeat match goal with |- context [Z.to_nat ?z] => let v := eval vm_compute in (Z.to_nat z) in change (Z.to_nat z) with v end; cbn;
  apply C_eq; cbn; ring.

(** C78 fails with dilations: when the shortcut is taken they are ignored, for every kernel with more than one row. The valid convolution does not exist, yet a
    number is returned; and the same convolution has another value. *)
Theorem C78_dilations_ignored_refuted :
  (forall data filters d0 d1 d2 d3 f3 d same, dims data = (d0, d1, d2, d3) -> dims filters = (d1, d2, d3, f3) -> 1 < d1 -> 0 < d2 -> 1 < d ->
     conv2d_complex true data filters (1, d1, d2, 1) same NHWC (1, d, 1, 1) = Ok (simplified_conv2d data filters) /\
     general_conv2d data filters (1, d1, d2, 1) false NHWC (1, d, 1, 1) = Err ValueError) /\
  (let ones := {| dims := (1, 2, 1, 1); at4 := fun _ _ _ _ => C1 |} in let kernel := {| dims := (2, 1, 1, 1); at4 := fun _ _ _ _ => C1 |} in
   exists r, general_conv2d ones kernel (1, 2, 1, 1) true NHWC (1, 2, 1, 1) = Ok r /\ at4 r 0 0 0 0 = C1 /\
     at4 (simplified_conv2d ones kernel) 0 0 0 0 = RtoC 2).
Proof.
  split.
  - intros data filters d0 d1 d2 d3 f3 d same ED EF H1 H2 H3. split.
    + unfold conv2d_complex. rewrite ED, EF, !Nat.eqb_refl. reflexivity.
    + unfold general_conv2d. cbn [spatial Nat.eqb andb bind]. unfold keras_conv_to_complex_conv, convolution, map_image, map_filter, to_image, to_filter.
      rewrite ED, EF. cbn [sizes ksizes channels inputs length Nat.eqb andb negb forallb]. rewrite Nat.eqb_refl.
      rewrite (proj2 (Nat.ltb_lt 0 d1)), (proj2 (Nat.ltb_lt 0 d2)), (proj2 (Nat.ltb_lt 0 d)) by lia. cbn [andb negb Nat.ltb Nat.leb map2 forallb].
      assert (N : (effective_size d1 d <=? d1) = false).
      { apply Nat.leb_gt. unfold effective_size. destruct d1 as [|d1]; [lia|]. replace (S d1 - 1) with d1 by lia. nia. }
      rewrite N. reflexivity.
  - cbv zeta. destruct (general_ok true NHWC {| dims := (1, 2, 1, 1); at4 := fun _ _ _ _ => C1 |} {| dims := (2, 1, 1, 1); at4 := fun _ _ _ _ => C1 |}
      (1, 2, 1, 1) (1, 2, 1, 1) [2; 1] [2; 1] eq_refl eq_refl) as [r [E [before [A [_ [_ V]]]]]].
    + cbn. repeat (constructor; try lia; auto).
    + reflexivity.
    + exists r. split; [exact E|]. split.
      * remember (sizes (to_image NHWC r)) as sz. cbn in A.
        inversion A as [|n k s d out a ns ks ss ds outs bs HA1 A1]; subst. inversion A1 as [|n k s d out' a' ns ks ss ds outs' bs' HA2 A2]; subst.
        inversion A2; subst. destruct HA1 as [_ [B1 B2]], HA2 as [_ [B3 B4]]. assert (out = 1) by lia. assert (out' = 1) by lia. subst out out'.
        assert (a = 0) by (apply Nat2Z.inj; rewrite B2; reflexivity). assert (a' = 0) by (apply Nat2Z.inj; rewrite B4; reflexivity). subst a a'.
        match goal with H : [1; 1] = sizes _ |- _ => rewrite <- H in V end. specialize (V 0 [0; 0] 0 ltac:(repeat constructor)). rewrite (proj1 (pixel_image r 0 0 0 0)) in V. rewrite V. closed_convolution.
      * cbn. apply C_eq; cbn; ring.
Qed.
Print Assumptions C78_dilations_ignored_refuted.

(** C78 fails for channels first: when the sizes coincide, channel, rows and columns are taken for rows, columns and channels. With one channel, images of
    3 rows and one column, and a kernel of one row and 3 columns, the shortcut returns the sum of the whole image where the convolution is one pixel. *)
Theorem C78_channels_first_refuted :
  let data := {| dims := (1, 1, 3, 1); at4 := fun _ _ i _ => RtoC (INR i) |} in let kernel := {| dims := (1, 3, 1, 1); at4 := fun _ _ _ _ => C1 |} in
  conv2d_complex true data kernel (1, 1, 3, 1) true NCHW (1, 1, 1, 1) = Ok (simplified_conv2d data kernel) /\
  at4 (simplified_conv2d data kernel) 0 0 0 0 = RtoC 3 /\
  exists r, general_conv2d data kernel (1, 1, 3, 1) true NCHW (1, 1, 1, 1) = Ok r /\ at4 r 0 0 0 0 = RtoC 0.
Proof.
  cbv zeta. split; [reflexivity|]. split; [unfold simplified_conv2d; cbn -[split3]; repeat match goal with |- context [split3 ?a ?b ?c] =>
    let v := eval vm_compute in (split3 a b c) in change (split3 a b c) with v end; cbn; apply C_eq; cbn; ring|].
  destruct (general_ok true NCHW {| dims := (1, 1, 3, 1); at4 := fun _ _ i _ => RtoC (INR i) |} {| dims := (1, 3, 1, 1); at4 := fun _ _ _ _ => C1 |}
      (1, 1, 3, 1) (1, 1, 1, 1) [3; 1] [1; 1] eq_refl eq_refl) as [r [E [before [A [_ [_ V]]]]]].
  - cbn. repeat (constructor; try lia; auto).
  - reflexivity.
  - exists r. split; [exact E|].
    remember (sizes (to_image NCHW r)) as sz. cbn in A.
    inversion A as [|n k s d out a ns ks ss ds outs bs HA1 A1]; subst. inversion A1 as [|n k s d out' a' ns ks ss ds outs' bs' HA2 A2]; subst.
    inversion A2; subst. destruct HA1 as [_ [B1 B2]], HA2 as [_ [B3 B4]]. assert (out = 1) by lia. assert (out' = 1) by lia. subst out out'.
    assert (a = 0) by (apply Nat2Z.inj; rewrite B2; reflexivity). assert (a' = 1) by (apply Nat2Z.inj; rewrite B4; reflexivity). subst a a'.
    match goal with H : [1; 1] = sizes _ |- _ => rewrite <- H in V end. specialize (V 0 [0; 0] 0 ltac:(repeat constructor)). rewrite (proj2 (pixel_image r 0 0 0 0)) in V. rewrite V. closed_convolution.
Qed.
Print Assumptions C78_channels_first_refuted.

(** C78: extract_complex_image_patches returns the pixels under the kernel, zero outside, in the order row, column, channel. With clip_imag_part the
    imaginary parts are moved to [0, 2 pi): real parts and exponentials stay. *)
Theorem C78_patches : forall same clip n1 n2 kh kw sh sw rh rw (images : tensor4 C) d0 ch,
  dims images = (d0, n1, n2, ch) -> fitting same [n1; n2] [kh; kw] [sh; sw] [rh; rw] ->
  exists P oh ow before, extract_complex_image_patches kh kw sh sw rh rw same clip images = Ok P /\
    axes same [n1; n2] [kh; kw] [sh; sw] [rh; rw] [oh; ow] before /\ dims P = (d0, oh, ow, kh * kw * ch) /\
    forall b i j h w c, i < oh -> j < ow -> h < kh -> w < kw -> c < ch ->
      let patch := at4 P b i j ((h * kw + w) * ch + c) in
      let z := value_at (to_image NHWC images) b (read_position [sh; sw] [rh; rw] before [i; j] [h; w]) c in
      if clip then Cexp patch = Cexp z /\ Re patch = Re z /\ (0 <= Im patch < 2 * PI)%R else patch = z.
Proof. exact patches_ok. Qed.
Print Assumptions C78_patches.

Example C78_patches_case : dims {| dims := (2, 4, 5, 3); at4 := fun _ i j c => (INR i, INR j) |} = (2, 4, 5, 3) /\
  fitting true [4; 5] [3; 3] [2; 1] [1; 2] /\ (0 <= floormod (- 1) (2 * PI) < 2 * PI)%R.
Proof.
  split; [reflexivity|]. split; [repeat (constructor; try lia; auto)|]. apply floormod_range. pose proof PI_RGT_0. lra.
Qed.

(** C78: without padding, an image smaller than the patches is refused. *)
Theorem C78_patches_too_large : forall clip n1 n2 kh kw sh sw rh rw (images : tensor4 C) d0 ch, dims images = (d0, n1, n2, ch) -> 0 < kh -> 0 < kw ->
  n1 <= (kh - 1) * rh \/ n2 <= (kw - 1) * rw -> extract_complex_image_patches kh kw sh sw rh rw false clip images = Err ValueError.
Proof.
  intros clip n1 n2 kh kw sh sw rh rw images d0 ch D Hh Hw B. unfold extract_complex_image_patches, extract_image_patches, to_image. cbn [dims map4d]. rewrite D. cbn [sizes map2 forallb negb andb].
  unfold effective_size. destruct (Nat.leb_spec ((kh - 1) * rh + 1) n1); destruct (Nat.leb_spec ((kw - 1) * rw + 1) n2); try reflexivity. lia.
Qed.
Print Assumptions C78_patches_too_large.
Example C78_patches_too_large_case : 4 <= (3 - 1) * 2. Proof. lia. Qed.

(** C78: multiplying the patches by the flattened kernel is the convolution: the helpers agree. *)
Theorem C78_patches_times_kernel : forall same kh kw sh sw rh rw (images : tensor4 C) (filters : tensor4 C) d0 n1 n2 ch f3,
  dims images = (d0, n1, n2, ch) -> dims filters = (kh, kw, ch, f3) -> fitting same [n1; n2] [kh; kw] [sh; sw] [rh; rw] ->
  exists P r, extract_complex_image_patches kh kw sh sw rh rw same false images = Ok P /\
    is_convolution same (to_image NHWC images) (to_filter filters) [sh; sw] [rh; rw] r /\
    forall b i j f, Forall2 lt [i; j] (sizes r) ->
      pixel r b [i; j] f = Csum (fun p => (at4 P b i j p * (let '(h, w, c) := split3 kw ch p in at4 filters h w c f))%C) (range (kh * kw * ch)).
Proof.
  intros same kh kw sh sw rh rw images filters d0 n1 n2 ch f3 ED EF F.
  destruct (patches_ok same false n1 n2 kh kw sh sw rh rw images d0 ch ED F) as [P [oh [ow [before [E [A [DP V]]]]]]].
  exists P, {| batch := d0; sizes := [oh; ow]; channels := f3; pixel := fun b o f => convolved (to_image NHWC images) (to_filter filters) [sh; sw] [rh; rw] before b o f |}.
  assert (EX : sizes (to_image NHWC images) = [n1; n2] /\ batch (to_image NHWC images) = d0) by (unfold to_image; rewrite ED; auto).
  assert (EW : to_filter filters = {| ksizes := [kh; kw]; inputs := ch; outputs := f3; tap := fun k c f => at4 filters (nth 0 k 0) (nth 1 k 0) c f |})
    by (unfold to_filter; rewrite EF; reflexivity).
  split; [exact E|]. split.
  - exists before. rewrite (proj1 EX), (proj2 EX). cbn [sizes batch channels pixel].
    replace (ksizes (to_filter filters)) with [kh; kw] by (rewrite EW; reflexivity). replace (outputs (to_filter filters)) with f3 by (rewrite EW; reflexivity).
    split; [exact A|]. split; [reflexivity|]. split; [reflexivity|]. reflexivity.
  - cbn [sizes pixel]. intros b i j f Ho. destruct (list2 _ _ _ Ho) as [i' [j' [[= <- <-] [Hi Hj]]]].
    rewrite <- (matmul_patches (to_image NHWC images) (to_filter filters) kh kw [sh; sw] [rh; rw] before b i j f (at4 P b i j)).
    + rewrite EW. cbn [inputs tap]. apply Csum_ext. intros p _. destruct (split3 kw ch p) as [[h w] c]. reflexivity.
    + rewrite EW. reflexivity.
    + rewrite EW. cbn [inputs]. intros h v c Hh Hv Hc. exact (V b i j h v c Hi Hj Hh Hv Hc).
Qed.
Print Assumptions C78_patches_times_kernel.

Example C78_patches_times_kernel_case : fitting false [4; 5] [3; 2] [1; 2] [1; 1] /\
  dims {| dims := (3, 2, 1, 7); at4 := fun _ _ _ _ => C1 |} = (3, 2, 1, 7).
Proof. split; [repeat (constructor; try lia; auto)|reflexivity]. Qed.
