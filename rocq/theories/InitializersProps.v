(** C76: random initial values of complex weights. *)
From Coq Require Import String List ZArith Arith Bool Reals Lra Lia.
From Verif Require Import Base Cplx ComplexModel InitializersModel InitializersSpec InitializersProofs.
Import ListNotations.
Local Open Scope R_scope.
Local Open Scope string_scope.
Local Open Scope list_scope.

Section Initializers.
Context (keras_names : string -> option keras_initializer) (keras_default : keras_initializer).
Notation add := (add_complex_weight keras_names keras_default).

(** The names complex_glorot and complex_he: every entry of the weight is a modulus times a direction, both from one draw; the modulus is
    1/n^2 times the length of two standard normal numbers, n = fan_in + fan_out or fan_in. The imaginary variable holds the opposite sign. *)
Theorem C76_standard_weight : forall (he : bool) (shape : list nat) (fan_in fan_out : nat) (d0 d1 : noise),
  fans shape fan_in fan_out -> (forall n, In n shape -> 1 <= n)%nat ->
  length (normal_x d0) = entries shape -> length (normal_y d0) = entries shape -> length (uniform d0) = entries shape ->
  let n := if he then fan_in else (fan_in + fan_out)%nat in
  exists i re im, add (Single (RName (if he then "complex_he" else "complex_glorot"))) Float32 shape d0 d1 = Ok (i, (re, im)) /\
    length re = entries shape /\ length im = entries shape /\
    forall k, (k < entries shape)%nat ->
      let x := nth k (normal_x d0) 0 in let y := nth k (normal_y d0) 0 in let phase := 2 * PI * nth k (uniform d0) 0 - PI in
      let modulus := / INR n ^ 2 * sqrt (x ^ 2 + y ^ 2) in
      nth k re 0 = modulus * cos phase /\ nth k im 0 = - (modulus * sin phase).
Proof.
  intros he shape fi fo d0 d1 F S Lx Ly Lu n. pose proof (fans_pos _ _ _ F S) as P.
  set (criterion := if he then "he" else "glorot").
  assert (C : In criterion ["glorot"; "he"]) by (unfold criterion; destruct he; cbn; auto).
  assert (A : add (Single (RName (if he then "complex_he" else "complex_glorot"))) Float32 shape d0 d1 = add (Instance (Standard criterion new_standard)) Float32 shape d0 d1)
    by (unfold criterion; destruct he; reflexivity).
  rewrite A. destruct (standard_ok keras_names keras_default criterion shape d0 d1 fi fo (entries shape) C F P Lx Ly Lu) as (i & [re im] & E & L & V & _).
  exists i, re, im. split; [exact E|].
  assert (LL : length re = entries shape /\ length im = entries shape).
  { revert E. unfold add_complex_weight. destruct (draw_ok criterion shape d0 fi fo C F P) as (scale & Sc & D).
    unfold get, call_real, draw. cbn [bind counter new_standard Nat.eqb]. rewrite D.
    cbn [bind real_part_initializer next_complex_number new_standard counter Nat.eqb Nat.ltb Nat.leb drawn fst snd variable same_float call_negated_imag draw imag_part_initializer].
    intros E. injection E as _ <- <-. unfold negate_decorator, random_rayleigh, random_normal, random_uniform. rewrite map_length.
    rewrite !map2_len; rewrite ?map_length, ?map2_len; rewrite ?map_length; try congruence. split; congruence. }
  destruct LL as [Lr Li]. split; [exact Lr|]. split; [exact Li|]. intros k K. specialize (V k K). cbv zeta.
  assert (G : sigma criterion fi fo = / INR n ^ 2).
  { unfold sigma, criterion, n. assert (0 < INR (fi + fo)) by (apply lt_0_INR; lia). assert (0 < INR fi) by (apply lt_0_INR; lia). destruct he; cbn [String.eqb Ascii.eqb Bool.eqb]; field; lra. }
  unfold complex_weight_value in V. cbn [fst snd] in V. rewrite (map2_nth _ _ _ 0 ((fun x => x * -1) 0)) in V by (rewrite ?map_length; congruence).
  rewrite (map_nth (fun x => x * -1)) in V. rewrite G in V. unfold Cscale, direction in V. cbn [fst snd] in V. injection V as V1 V2.
  replace (nth k (uniform d0) 0 * (PI - - PI) + - PI) with (2 * PI * nth k (uniform d0) 0 - PI) in V1, V2 by ring.
  replace (nth k (normal_x d0) 0 ^ 2 + nth k (normal_y d0) 0 ^ 2) with (nth k (normal_x d0) 0 * nth k (normal_x d0) 0 + nth k (normal_y d0) 0 * nth k (normal_y d0) 0) by ring.
  change (INR n ^ 2) with (INR n * (INR n * 1)). rewrite V1. split; [reflexivity|]. lra.
Qed.
Print Assumptions C76_standard_weight.
Example C76_standard_weight_ex :
  let d := {| normal_x := [1; 0; 2; 1; 3; 1]; normal_y := [0; 1; 0; 0; 0; 0]; uniform := [0; 0; 0; 0.5; 0; 0] |} in
  fans [2; 3]%nat 2 3 /\ (forall n, In n [2; 3]%nat -> 1 <= n)%nat /\ length (normal_x d) = entries [2; 3]%nat.
Proof.
  split; [right; right; exists [], 2%nat, 3%nat; repeat split|]. split; [|reflexivity]. intros n [<-|[<-|[]]]; lia.
Qed.

(** Two weights that share an initializer object: the second one cannot be created. Named initializers are new objects each time. *)
Theorem C76_shared_instance : forall criterion shape d0 d1 i variables t s e0 e1,
  add (Instance (Standard criterion new_standard)) Float32 shape d0 d1 = Ok (i, variables) ->
  add (Instance i) t s e0 e1 = Err GenericException.
Proof.
  intros criterion shape d0 d1 i variables t s e0 e1. unfold add_complex_weight at 1, get, call_real, draw. cbn [bind counter new_standard Nat.eqb].
  destruct (random_modulus_and_phase criterion shape d0) as [m|]; [|discriminate].
  cbn [bind real_part_initializer next_complex_number new_standard counter Nat.eqb Nat.ltb Nat.leb drawn fst snd variable same_float call_negated_imag draw imag_part_initializer].
  intros E. injection E as <- _. reflexivity.
Qed.
Print Assumptions C76_shared_instance.
Example C76_shared_instance_ex : exists i variables,
  add (Instance (Standard "he" new_standard)) Float32 [1]%nat {| normal_x := [1]; normal_y := [0]; uniform := [0] |} {| normal_x := []; normal_y := []; uniform := [] |} = Ok (i, variables).
Proof. eexists _, _. reflexivity. Qed.

(** The default initializer of ComplexDense should work for both dtypes of the layer. It does not: with complex128 every weight fails. *)
Theorem C76_complex128_refuted : forall (he : bool) (shape : list nat) (d0 d1 : noise), (forall n, In n shape -> 1 <= n)%nat ->
  add (Single (RName (if he then "complex_he" else "complex_glorot"))) (params_dtype true) shape d0 d1 = Err ValueError.
Proof.
  intros he shape d0 d1 S. destruct (fans_exist shape) as (fi & fo & F). pose proof (fans_pos _ _ _ F S) as P.
  set (criterion := if he then "he" else "glorot"). assert (C : In criterion ["glorot"; "he"]) by (unfold criterion; destruct he; cbn; auto).
  destruct (draw_ok criterion shape d0 fi fo C F P) as (scale & Sc & D).
  replace (add (Single (RName (if he then "complex_he" else "complex_glorot"))) (params_dtype true) shape d0 d1)
    with (add (Instance (Standard criterion new_standard)) Float64 shape d0 d1) by (unfold criterion; destruct he; reflexivity).
  unfold add_complex_weight, get, call_real, draw. cbn [bind counter new_standard Nat.eqb]. rewrite D. reflexivity.
Qed.
Print Assumptions C76_complex128_refuted.
Example C76_complex128_refuted_ex : forall n, In n [4; 4]%nat -> (1 <= n)%nat. Proof. intros n [<-|[<-|[]]]; lia. Qed.

(** Keras initializers, one for both parts or a pair: the weight starts at first value + i * second value, with both dtypes. *)
Theorem C76_keras_weight : forall (f g : keras_initializer) (t : float_type) (shape : list nat) (d0 d1 : noise) (name : string),
  let starts id re im := exists i variables, add id t shape d0 d1 = Ok (i, variables) /\ complex_weight_value variables = map2 (fun a b => (a, b)) re im in
  starts (Single (RCallable f)) (f 0%nat shape) (f 1%nat shape) /\
  starts (Tuple [RCallable f; RCallable g]) (f 0%nat shape) (g 1%nat shape) /\
  starts (Tuple [RNone; RCallable g]) (keras_default 0%nat shape) (g 1%nat shape) /\
  (name <> "complex_glorot" -> name <> "complex_he" -> keras_names name = Some f -> starts (Single (RName name)) (f 0%nat shape) (f 1%nat shape)).
Proof.
  intros f g t shape d0 d1 name starts.
  assert (V : forall a b, complex_weight_value (a, negate_decorator b) = map2 (fun x y => (x, y)) a b).
  { intros a b. unfold complex_weight_value, negate_decorator. cbn [fst snd]. rewrite map_map. rewrite (map_ext _ (fun x => x)) by (intros; ring). rewrite map_id. reflexivity. }
  assert (K : forall re im, exists i variables,
    (do a <- call_real keras_default t shape d0 (FromReal re (Some im)) ; do x <- variable t (snd a) ; do b <- call_negated_imag t shape d1 (fst a) ; do y <- variable t (snd b) ; Ok (fst b, (x, y)))
    = Ok (i, variables) /\ complex_weight_value variables = map2 (fun x y => (x, y)) (match re with Some f => f 0%nat shape | None => keras_default 0%nat shape end) (im 1%nat shape)).
  { intros re im. cbn [call_real bind]. unfold variable. cbn [fst snd call_negated_imag bind].
    assert (T : same_float t t = true) by (destruct t; reflexivity). rewrite T. cbn [bind fst snd]. eexists _, _. split; [reflexivity|]. apply V. }
  unfold starts, add_complex_weight. split; [exact (K (Some f) f)|]. split; [exact (K (Some f) g)|]. split; [exact (K None g)|].
  intros N1 N2 E. cbn [get existsb]. apply String.eqb_neq in N1, N2. rewrite N1, N2. cbn [orb]. unfold from_real_value_initializers, keras_get. rewrite E. exact (K (Some f) f).
Qed.
Print Assumptions C76_keras_weight.
Example C76_keras_weight_ex : "zeros" <> "complex_glorot" /\ "zeros" <> "complex_he". Proof. split; discriminate. Qed.

(** What cannot be interpreted. None gives an AttributeError, since the imaginary part negates the result of calling it. *)
Theorem C76_errors : forall (t : float_type) (shape : list nat) (d0 d1 : noise),
  (forall l, length l <> 2%nat -> add (Tuple l) t shape d0 d1 = Err ValueError) /\
  add (Single ROther) t shape d0 d1 = Err ValueError /\
  (forall name, name <> "complex_glorot" -> name <> "complex_he" -> keras_names name = None -> add (Single (RName name)) t shape d0 d1 = Err ValueError) /\
  add (Single RNone) t shape d0 d1 = Err AttributeError /\
  (forall f, add (Tuple [RCallable f; RNone]) t shape d0 d1 = Err AttributeError) /\
  (forall criterion, criterion <> "glorot" -> criterion <> "he" -> add (Instance (Standard criterion new_standard)) t shape d0 d1 = Err ValueError) /\
  (forall fan_out, fans shape 0 fan_out -> add (Single (RName "complex_he")) t shape d0 d1 = Err ZeroDivisionError) /\
  (fans shape 0 0 -> add (Single (RName "complex_glorot")) t shape d0 d1 = Err ZeroDivisionError).
Proof.
  intros t shape d0 d1. assert (T : same_float t t = true) by (destruct t; reflexivity).
  split; [intros [|a [|b [|c l]]] L; try reflexivity; now contradiction L|]. split; [reflexivity|]. split.
  { intros name N1 N2 E. unfold add_complex_weight. cbn [get existsb]. apply String.eqb_neq in N1, N2. rewrite N1, N2. cbn [orb].
    unfold from_real_value_initializers, keras_get. rewrite E. reflexivity. }
  split; [unfold add_complex_weight; cbn [get from_real_value_initializers keras_get bind call_real fst snd]; unfold variable; cbn [fst snd]; rewrite T; reflexivity|].
  split; [intros f; unfold add_complex_weight; cbn [get from_real_value_initializers keras_get bind call_real fst snd]; unfold variable; cbn [fst snd]; rewrite T; reflexivity|].
  split; [|split].
  - intros criterion N1 N2. unfold add_complex_weight. cbn [get bind call_real]. unfold draw. cbn [counter new_standard Nat.eqb]. unfold random_modulus_and_phase.
    destruct (compute_fans shape). apply String.eqb_neq in N1, N2. rewrite N1, N2. reflexivity.
  - intros fo F. unfold add_complex_weight. cbn [get existsb]. change (("complex_he" =? "complex_glorot") || (("complex_he" =? "complex_he") || false))%bool with true. cbn [bind].
    change (substring 8 (String.length "complex_he" - 8) "complex_he") with "he". cbn [call_real]. unfold draw. cbn [counter new_standard Nat.eqb]. unfold random_modulus_and_phase.
    rewrite (fans_ok _ _ _ F). reflexivity.
  - intros F. unfold add_complex_weight. cbn [get existsb]. change (("complex_glorot" =? "complex_glorot") || (("complex_glorot" =? "complex_he") || false))%bool with true. cbn [bind].
    change (substring 8 (String.length "complex_glorot" - 8) "complex_glorot") with "glorot". cbn [call_real]. unfold draw. cbn [counter new_standard Nat.eqb]. unfold random_modulus_and_phase.
    rewrite (fans_ok _ _ _ F). reflexivity.
Qed.
Print Assumptions C76_errors.
Example C76_errors_ex : fans [0; 3]%nat 0 3 /\ fans [0]%nat 0 0 /\ fans [0; 5; 5]%nat 0 0.
Proof.
  split; [right; right; exists [], 0%nat, 3%nat; repeat split|]. split; [right; left; exists 0%nat; repeat split|].
  right. right. exists [0]%nat, 5%nat, 5%nat. repeat split.
Qed.

(** * Moments *)

(** The second moment of every entry. With complex_glorot it is meant to be 2/(fan_in + fan_out), with complex_he 2/fan_in, whatever the draws are, as long as
    the normal numbers have second moment 1. It is smaller by the third power of that number, so that the claim holds only for complex_he with fan_in 1. *)
Theorem C76_criterion_refuted : forall (Omega : Type) (P : expectation Omega) (he : bool) (shape : list nat) (fan_in fan_out : nat) (d0 d1 : Omega -> noise) (W : Omega -> list C),
  fans shape fan_in fan_out -> (forall n, In n shape -> 1 <= n)%nat ->
  unit_moments P (entries shape) (fun w => normal_x (d0 w)) -> unit_moments P (entries shape) (fun w => normal_y (d0 w)) -> (forall w, length (uniform (d0 w)) = entries shape) ->
  (forall w, exists i variables,
    add (Single (RName (if he then "complex_he" else "complex_glorot"))) Float32 shape (d0 w) (d1 w) = Ok (i, variables) /\ W w = complex_weight_value variables) ->
  let n := if he then fan_in else (fan_in + fan_out)%nat in
  forall k, (k < entries shape)%nat ->
    has_mean P (fun w => Cnorm2 (nth k (W w) C0)) (2 / INR n ^ 4) /\
    2 / INR n ^ 4 = 2 / INR n / INR n ^ 3 /\ (2 / INR n ^ 4 = 2 / INR n <-> n = 1%nat) /\ (he = false -> n <> 1%nat).
Proof.
  intros Omega P he shape fi fo d0 d1 W F S X Y U A n k K. pose proof (fans_pos _ _ _ F S) as Q.
  assert (N : (1 <= n)%nat) by (unfold n; destruct he; lia). assert (NR : 1 <= INR n) by (apply (le_INR 1 n N)).
  split; [|split; [field; lra|split]].
  - set (criterion := if he then "he" else "glorot"). assert (C : In criterion ["glorot"; "he"]) by (unfold criterion; destruct he; cbn; auto).
    assert (G : sigma criterion fi fo = 1 / INR n * (1 / INR n)) by (unfold sigma, criterion, n; destruct he; reflexivity).
    rewrite <- (inv4 n N), <- G. apply (weight_moment P W _ _ (fun w => uniform (d0 w)) _ _ k X Y K).
    intros w. destruct (A w) as (i & v & E & ->).
    destruct (standard_ok keras_names keras_default criterion shape (d0 w) (d1 w) fi fo (entries shape) C F Q (proj1 X w) (proj1 Y w) (U w)) as (i' & v' & E' & _ & V & _).
    replace (add (Single (RName (if he then "complex_he" else "complex_glorot"))) Float32 shape (d0 w) (d1 w))
      with (add (Instance (Standard criterion new_standard)) Float32 shape (d0 w) (d1 w)) in E by (unfold criterion; destruct he; reflexivity).
    rewrite E in E'. injection E' as <- <-. exact (V k K).
  - split.
    + intros E. assert (E2 : 2 = 2 * INR n ^ 3) by (apply (f_equal (fun x => x * INR n ^ 4)) in E; field_simplify in E; lra).
      assert (E3 : INR n = 1) by nra. apply INR_eq. exact E3.
    + intros ->. cbn. field.
  - intros ->. unfold n. lia.
Qed.
Print Assumptions C76_criterion_refuted.
(** Two independent coins: the mean over four outcomes. *)
Definition coins : expectation (bool * bool).
Proof.
  refine {| integrable := fun _ => True; mean := fun f => (f (true, true) + f (true, false) + f (false, true) + f (false, false)) / 4 |}.
  - intros f g E _. split; [exact Logic.I|]. rewrite !E. reflexivity.
  - intros f g _ _. split; [exact Logic.I|]. field.
  - intros c f _. split; [exact Logic.I|]. field.
Defined.
(** A weight with two entries: the moduli are fixed, the phases are two coins. *)
Definition coin_noise (w : bool * bool) : noise :=
  {| normal_x := [1; 1]; normal_y := [1; 1]; uniform := [if fst w then 0 else / 2; if snd w then 0 else / 2] |}.
Example C76_criterion_refuted_ex : exists W : bool * bool -> list C,
  fans [2; 1]%nat 2 1 /\ unit_moments coins (entries [2; 1]%nat) (fun w => normal_x (coin_noise w)) /\
  (forall w, length (uniform (coin_noise w)) = entries [2; 1]%nat) /\
  (forall w, exists i variables, add (Single (RName "complex_glorot")) Float32 [2; 1]%nat (coin_noise w) (coin_noise w) = Ok (i, variables) /\ W w = complex_weight_value variables).
Proof.
  exists (fun w => match add (Single (RName "complex_glorot")) Float32 [2; 1]%nat (coin_noise w) (coin_noise w) with Ok r => complex_weight_value (snd r) | Err _ => [] end).
  split; [right; right; exists [], 2%nat, 1%nat; repeat split|]. split.
  { split; [intros w; reflexivity|]. intros [|[|k]] K; [..|exfalso; unfold entries in K; cbn in K; lia]; (split; [exact Logic.I|cbn; field]). }
  split; [intros w; reflexivity|]. intros w. eexists _, _. split; reflexivity.
Qed.

(** The first layer: for a kernel of [inputs] by [units] entries with unrelated directions, the mean square of an output is the sum of the squares of the inputs
    over (inputs + units)^4 times two; for an input of plus and minus ones the layer divides the signal by more than the third power of its size. *)
Theorem C76_output_power : forall (Omega : Type) (P : expectation Omega) (inputs units : nat) (d0 d1 : Omega -> noise) (W : Omega -> list C) (x : list C) (j : nat),
  (1 <= inputs)%nat -> (j < units)%nat -> length x = inputs ->
  unit_moments P (inputs * units) (fun w => normal_x (d0 w)) -> unit_moments P (inputs * units) (fun w => normal_y (d0 w)) -> (forall w, length (uniform (d0 w)) = (inputs * units)%nat) ->
  (forall w, exists i variables, add (Single (RName "complex_glorot")) Float32 [inputs; units] (d0 w) (d1 w) = Ok (i, variables) /\ W w = complex_weight_value variables) ->
  unrelated P (inputs * units) W ->
  let power := 2 / INR (inputs + units) ^ 4 * Rsum (fun a => Cnorm2 a) x in
  has_mean P (fun w => Cnorm2 (dense_output units (W w) x j)) power /\
  ((forall a, In a x -> Cnorm2 a = 1) -> power <= 2 / INR (inputs + units) ^ 3).
Proof.
  intros Omega P n u d0 d1 W x j N J L X Y U A R power.
  assert (En : entries [n; u] = (n * u)%nat) by (unfold entries; cbn; lia).
  split.
  - apply (output_power P W n u x j); try assumption. intros k K. rewrite <- En in *.
    apply (C76_criterion_refuted Omega P false [n; u] n u d0 d1 W); try assumption.
    + right. right. exists [], n, u. repeat split; unfold entries; cbn; lia.
    + intros m [<-|[<-|[]]]; lia.
  - intros H. unfold power. rewrite (Rsum_ext (fun a => Cnorm2 a) (fun _ => 1) x H), Rsum_const, L, Rmult_1_r.
    assert (G : INR n <= INR (n + u)) by (apply le_INR; lia). assert (G0 : 0 < INR (n + u)) by (apply lt_0_INR; lia).
    replace (2 / INR (n + u) ^ 3) with (2 / INR (n + u) ^ 4 * INR (n + u)) by (field; lra). apply Rmult_le_compat_l; [|exact G].
    apply Rlt_le, Rdiv_lt_0_compat; [lra|]. apply pow_lt. exact G0.
Qed.
Print Assumptions C76_output_power.
(** The weight of the coins has unrelated directions. *)
Example C76_output_power_ex : forall W : bool * bool -> list C,
  (forall w, exists i variables, add (Single (RName "complex_glorot")) Float32 [2; 1]%nat (coin_noise w) (coin_noise w) = Ok (i, variables) /\ W w = complex_weight_value variables) ->
  unrelated coins (2 * 1) W.
Proof.
  intros W H.
  assert (V : forall w, exists g, W w = [Cscale g (if fst w then (-1, 0) else (1, 0)); Cscale g (if snd w then (-1, 0) else (1, 0))] /\ g = / INR 3 ^ 2 * sqrt (1 ^ 2 + 1 ^ 2)).
  { intros w. exists (/ INR 3 ^ 2 * sqrt (1 ^ 2 + 1 ^ 2)). split; [|reflexivity]. destruct (H w) as (i & v & E & ->).
    destruct (C76_standard_weight false [2; 1]%nat 2 1 (coin_noise w) (coin_noise w)) as (i' & re & im & E' & Lr & Li & N);
      [right; right; exists [], 2%nat, 1%nat; repeat split|intros n [<-|[<-|[]]]; lia|reflexivity..|].
    rewrite E in E'. injection E' as _ ->. destruct re as [|a [|b [|]]]; try discriminate Lr. destruct im as [|c [|d [|]]]; try discriminate Li.
    destruct (N 0%nat ltac:(cbv; lia)) as [N1 N2]. destruct (N 1%nat ltac:(cbv; lia)) as [N3 N4]. cbv zeta in N1, N2, N3, N4. cbn [nth normal_x normal_y uniform coin_noise] in N1, N2, N3, N4.
    change (2 + 1)%nat with 3%nat in *.
    assert (Q : forall x : bool, cos (2 * PI * (if x then 0 else / 2) - PI) = (if x then -1 else 1) /\ sin (2 * PI * (if x then 0 else / 2) - PI) = 0).
    { intros [|]; [replace (2 * PI * 0 - PI) with (- PI) by ring; rewrite cos_neg, sin_neg, cos_PI, sin_PI; split; ring|].
      replace (2 * PI * / 2 - PI) with 0 by field. rewrite cos_0, sin_0. split; ring. }
    destruct (Q (fst w)) as [Q1 Q2]. destruct (Q (snd w)) as [Q3 Q4]. rewrite Q1 in N1. rewrite Q2 in N2. rewrite Q3 in N3. rewrite Q4 in N4.
    unfold complex_weight_value. cbn [fst snd map map2]. rewrite N1, N2, N3, N4. destruct w as [[|] [|]]; unfold Cscale; cbn [fst snd]; generalize (/ INR 3 ^ 2 * sqrt (1 ^ 2 + 1 ^ 2)); intros g;
      replace (- (g * 0) * -1) with (g * 0) by ring; reflexivity. }
  intros k l Hk Hl D. unfold has_mean, coins. cbn [integrable mean].
  destruct (V (true, true)) as (g & -> & G1). destruct (V (true, false)) as (g2 & -> & G2). destruct (V (false, true)) as (g3 & -> & G3). destruct (V (false, false)) as (g4 & -> & G4).
  rewrite <- G1 in G2, G3, G4. subst g2 g3 g4. cbn [fst snd].
  assert (B : (k = 0 /\ l = 1 \/ k = 1 /\ l = 0)%nat) by lia.
  destruct B as [[-> ->]|[-> ->]]; cbn [nth]; unfold Cmult, Cconj, Cscale, Re, Im; cbn [fst snd]; (split; (split; [exact Logic.I|field])).
Qed.

(** The RBM machines pass one normal initializer for everything: the second moment of the entries is twice the variance asked for. *)
Theorem C76_normal_weight : forall (Omega : Type) (P : expectation Omega) (stddev : R) (n : nat) (re im : Omega -> list R) (t : float_type) (shape : list nat) (d0 d1 : noise) (W : Omega -> list C),
  unit_moments P n re -> unit_moments P n im ->
  (forall w, exists i variables,
    add (Single (RCallable (fun call _ => random_normal stddev (if (call =? 0)%nat then re w else im w)))) t shape d0 d1 = Ok (i, variables) /\ W w = complex_weight_value variables) ->
  forall k, (k < n)%nat -> has_mean P (fun w => Cnorm2 (nth k (W w) C0)) (2 * stddev ^ 2).
Proof.
  intros Omega P stddev n re im t shape d0 d1 W X Y A k K.
  apply (has_mean_ext P (fun w => stddev * stddev * (nth k (re w) 0 * nth k (re w) 0 + nth k (im w) 0 * nth k (im w) 0))).
  - intros w. destruct (A w) as (i & v & E & ->).
    destruct (proj1 (C76_keras_weight (fun call _ => random_normal stddev (if (call =? 0)%nat then re w else im w)) (fun _ _ => []) t shape d0 d1 "")) as (i' & v' & E' & V).
    rewrite E in E'. injection E' as <- <-. rewrite V. cbn [Nat.eqb]. unfold random_normal.
    rewrite (map2_nth _ _ _ (stddev * 0) (stddev * 0)); rewrite ?map_length, ?(proj1 X), ?(proj1 Y); try reflexivity; try exact K.
    rewrite !(map_nth (Rmult stddev)). unfold Cnorm2. cbn [fst snd]. ring.
  - replace (2 * stddev ^ 2) with (stddev * stddev * (1 + 1)) by ring. apply has_mean_scale, has_mean_plus; [apply (proj2 X)|apply (proj2 Y)]; exact K.
Qed.
Print Assumptions C76_normal_weight.
Example C76_normal_weight_ex :
  unit_moments coins 2 (fun w => [if fst w then 1 else -1; if snd w then 1 else -1]) /\ unit_moments coins 2 (fun _ => [1; -1]).
Proof. split; (split; [intros w; reflexivity|]; intros [|[|k]] K; [..|exfalso; lia]; (split; [exact Logic.I|cbn; field])). Qed.

End Initializers.
