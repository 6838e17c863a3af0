(** A relation between families of numbers and numbers that respects zero, sums and products is respected by all layers of the machines. *)
From Coq Require Import List ZArith Arith Bool Lia.
From Verif Require Import Base OrderingModel OrderingSpec TensorModel MachinesModel MachinesSpec GradientModel.
Import ListNotations.
Local Open Scope nat_scope.

Lemma flat_map_prod {A B D} (g : A -> B -> D) (L1 : list A) (L2 : list B) :
  flat_map (fun a => map (g a) L2) L1 = map (fun p => g (fst p) (snd p)) (list_prod L1 L2).
Proof. induction L1 as [|a L1 IH]; [reflexivity|]. cbn [flat_map list_prod]. rewrite map_app, map_map, IH. reflexivity. Qed.

Section Relation.
  Context {Ix T U : Type} (N : numbers T) (D : numbers U) (entry : (Ix -> T) -> U -> Prop).
  Context (rel_ext : forall f g p, (forall t, f t = g t) -> entry f p -> entry g p).
  Context (rel_zero : entry (fun _ => zero N) (zero D)).
  Context (rel_plus : forall f g a b, entry f a -> entry g b -> entry (fun t => plus N (f t) (g t)) (plus D a b)).
  Context (rel_times : forall f g a b, entry f a -> entry g b -> entry (fun t => times N (f t) (g t)) (times D a b)).

  Definition vec_rel (f : Ix -> list T) (v : list (U)) : Prop :=
    (forall t, length (f t) = length v) /\ forall i, entry (fun t => nth i (f t) (zero N)) (nth i v (zero D)).
  Definition tensor_rel (X : Ix -> tensor (list T)) (Y : tensor (list (U))) : Prop :=
    (forall t, tshape (X t) = tshape Y) /\ forall l, vec_rel (fun t => tval (X t) l) (tval Y l).
  Definition krel (X : Ix -> ktensor T) (Y : ktensor (U)) : Prop :=
    tensor_rel (fun t => kt (X t)) (kt Y) /\ forall t, features (X t) = features Y.
  Definition res_rel {A B} (rel : (Ix -> A) -> B -> Prop) (F : Ix -> res A) (G : res B) : Prop :=
    match G with Ok Y => exists X, (forall t, F t = Ok (X t)) /\ rel X Y | Err e => forall t, F t = Err e end.
  Definition wrel (w : Ix -> weights T) (dw : weights (U)) : Prop :=
    (forall j, entry (fun t => kernel_at (w t) j) (kernel_at dw j)) /\ forall j, entry (fun t => bias_at (w t) j) (bias_at dw j).
  Definition lawful_act (act : list T -> list T) (dact : list (U) -> list (U)) : Prop :=
    forall f v, vec_rel f v -> vec_rel (fun t => act (f t)) (dact v).

  Lemma sum_rel {A} (F : A -> Ix -> T) (G : A -> U) (L : list A) : (forall a, In a L -> entry (F a) (G a)) ->
    entry (fun t => fold_right (plus N) (zero N) (map (fun a => F a t) L)) (fold_right (plus D) (zero D) (map G L)).
  Proof.
    induction L as [|a L IH]; intros H; [apply rel_zero|]. cbn [map fold_right].
    apply (rel_plus (F a)); [apply H; now left|]. apply IH. intros b Hb. apply H. now right.
  Qed.

  Lemma vec_map {A} (F : A -> Ix -> T) (G : A -> U) (L : list A) : (forall a, In a L -> entry (F a) (G a)) ->
    vec_rel (fun t => map (fun a => F a t) L) (map G L).
  Proof.
    intros H. split; [intros t; now rewrite !map_length|]. induction L as [|a L IH]; intros i; [destruct i; apply rel_zero|].
    destruct i as [|i]; cbn [map nth]; [apply H; now left|]. apply IH. intros b Hb. apply H. now right.
  Qed.

  Lemma vec_ext f g v : (forall t, f t = g t) -> vec_rel f v -> vec_rel g v.
  Proof.
    intros E [H1 H2]. split; [intros t; now rewrite <- E|]. intros i. apply (rel_ext (fun t => nth i (f t) (zero N))); [intros t; now rewrite E|auto].
  Qed.

  Lemma nth_map2_in {X Y Z} (h : X -> Y -> Z) u v i d1 d2 d3 : i < length u -> i < length v -> nth i (map2 h u v) d3 = h (nth i u d1) (nth i v d2).
  Proof.
    revert v i. induction u as [|x u IH]; intros [|y v] [|i] Hu Hv; cbn in *; try lia; auto. apply IH; lia.
  Qed.

  Lemma vec_map2 f g v w : vec_rel f v -> vec_rel g w -> vec_rel (fun t => map2 (plus N) (f t) (g t)) (map2 (plus D) v w).
  Proof.
    intros [F1 F2] [G1 G2]. split; [intros t; rewrite !map2_length, F1, G1; reflexivity|]. intros i.
    destruct (Nat.lt_ge_cases i (length v)) as [Lv|Lv]; [destruct (Nat.lt_ge_cases i (length w)) as [Lw|Lw]|].
    - rewrite (nth_map2_in _ v w i (zero D) (zero D)) by assumption.
      apply (rel_ext (fun t => plus N (nth i (f t) (zero N)) (nth i (g t) (zero N)))).
      + intros t. symmetry. apply nth_map2_in; [now rewrite F1|now rewrite G1].
      + apply (rel_plus (fun t => nth i (f t) (zero N)) (fun t => nth i (g t) (zero N))); auto.
    - rewrite (nth_overflow (map2 _ v w)) by (rewrite map2_length; lia).
      apply (rel_ext (fun _ => zero N)); [|apply rel_zero]. intros t. symmetry. apply nth_overflow. rewrite map2_length, F1, G1. lia.
    - rewrite (nth_overflow (map2 _ v w)) by (rewrite map2_length; lia).
      apply (rel_ext (fun _ => zero N)); [|apply rel_zero]. intros t. symmetry. apply nth_overflow. rewrite map2_length, F1, G1. lia.
  Qed.

  Lemma vec_app f g v w : vec_rel f v -> vec_rel g w -> vec_rel (fun t => f t ++ g t) (v ++ w).
  Proof.
    intros [F1 F2] [G1 G2]. split; [intros t; rewrite !app_length, F1, G1; reflexivity|]. intros i.
    destruct (Nat.lt_ge_cases i (length v)) as [Lv|Lv].
    - rewrite app_nth1 by assumption. apply (rel_ext (fun t => nth i (f t) (zero N))); [|auto]. intros t. rewrite app_nth1; [reflexivity|now rewrite F1].
    - rewrite app_nth2 by assumption. apply (rel_ext (fun t => nth (i - length v) (g t) (zero N))); [|auto].
      intros t. rewrite app_nth2, F1; [reflexivity|]. rewrite F1. assumption.
  Qed.

  Lemma vec_zeros n : vec_rel (fun _ => repeat (zero N) n) (repeat (zero D) n).
  Proof.
    split; [intros t; now rewrite !repeat_length|]. intros i. rewrite !nth_repeat. apply rel_zero.
  Qed.

  (** * Layers *)
  Lemma concat2_rel d X1 X2 Y1 Y2 : tensor_rel X1 Y1 -> tensor_rel X2 Y2 -> tensor_rel (fun t => concat2 d (X1 t) (X2 t)) (concat2 d Y1 Y2).
  Proof.
    intros [A1 A2] [B1 B2]. split; [intros t; cbn; now rewrite A1, B1|]. intros l. cbn [concat2 tval].
    destruct (nth d l 0 <? nth d (tshape Y1) 0) eqn:E.
    - apply (vec_ext (fun t => tval (X1 t) l)); [|apply A2]. intros t. now rewrite A1, E.
    - apply (vec_ext (fun t => tval (X2 t) (upd l d (nth d l 0 - nth d (tshape Y1) 0)))); [|apply B2]. intros t. now rewrite A1, E.
  Qed.

  Lemma constant_like_rel d n m X Y : tensor_rel X Y ->
    tensor_rel (fun t => constant_like d n (repeat (zero N) m) (X t)) (constant_like d n (repeat (zero D) m) Y).
  Proof. intros [A1 A2]. split; [intros t; cbn; now rewrite A1|]. intros l. apply vec_zeros. Qed.

  Lemma take_first_rel d n X Y : tensor_rel X Y -> tensor_rel (fun t => take_first d n (X t)) (take_first d n Y).
  Proof. intros [A1 A2]. split; [intros t; cbn; now rewrite A1|]. intros l. apply A2. Qed.

  Lemma zero_padding_rel m padding : forall d X Y, tensor_rel X Y ->
    tensor_rel (fun t => zero_padding_from (repeat (zero N) m) d padding (X t)) (zero_padding_from (repeat (zero D) m) d padding Y).
  Proof.
    induction padding as [|[b a] r IH]; intros d X Y H; [exact H|]. cbn [zero_padding_from].
    apply (IH (S d) (fun t => concat2 d (concat2 d (constant_like d b (repeat (zero N) m) (X t)) (X t)) (constant_like d a (repeat (zero N) m) (X t)))).
    apply concat2_rel; [apply concat2_rel|]; try apply constant_like_rel; assumption.
  Qed.

  Lemma tensor_ext X X' Y : (forall t, X t = X' t) -> tensor_rel X Y -> tensor_rel X' Y.
  Proof.
    intros E [A1 A2]. split; [intros t; now rewrite <- E|]. intros l. apply (vec_ext (fun t => tval (X t) l)); [intros t; now rewrite E|auto].
  Qed.

  Lemma zero_pad_rel padding X Y : krel X Y -> krel (fun t => zero_pad N padding (X t)) (zero_pad D padding Y).
  Proof.
    intros [A B]. split; [|exact B]. cbn [zero_pad kt]. unfold zero_padding.
    apply (tensor_ext (fun t => zero_padding_from (repeat (zero N) (features Y)) 0 padding (kt (X t)))); [intros t; now rewrite B|].
    now apply (zero_padding_rel (features Y) padding 0 (fun t => kt (X t))).
  Qed.

  Lemma shift_rel d X Y : krel X Y -> krel (fun t => shift_layer N d (X t)) (shift_layer D d Y).
  Proof.
    intros [A B]. split; [|exact B]. cbn [shift_layer kt]. unfold shift.
    apply (tensor_ext (fun t => concat2 d (constant_like d 1 (repeat (zero N) (features Y)) (take_first d 1 (kt (X t))))
      (take_first d (nth d (tshape (kt Y)) 0 - 1) (kt (X t))))).
    - intros t. now rewrite B, (proj1 A t).
    - apply concat2_rel; [apply constant_like_rel|]; now apply (take_first_rel d _ (fun t => kt (X t))).
  Qed.

  Lemma activate_rel act dact X Y : lawful_act act dact -> krel X Y -> krel (fun t => activate act (X t)) (activate dact Y).
  Proof.
    intros HA [[A1 A2] B]. split; [|exact B]. split; [exact A1|]. intros l. cbn [activate kt tval]. apply HA. apply A2.
  Qed.

  Lemma conv_rel w dw f ks dil X Y : wrel w dw -> krel X Y ->
    res_rel krel (fun t => conv_layer N (w t) f ks dil (X t)) (conv_layer D dw f ks dil Y).
  Proof.
    intros [W1 W2] [[A1 A2] B]. unfold conv_layer. cbn [conv_output tshape conv_of kernel_size strides dilation_rate].
    destruct (existsb (Nat.eqb 0) (conv_shape (tshape (kt Y)) ks (map (fun _ => 1) ks) dil)) eqn:E; cbn [res_rel].
    - intros t. now rewrite A1, E.
    - eexists (fun t => {| kt := conv_output (zero N) (plus N) (times N) (conv_of (w t) ks dil (features (X t)) f) (kt (X t)); features := f |}).
      split; [intros t; now rewrite A1, E|]. split; [|reflexivity]. cbn [kt]. split; [intros t; cbn; now rewrite A1|]. intros l.
      cbn [conv_output tval conv_of bias activation kernel filters channels kernel_size].
      set (LL := list_prod (raster ks) (range (features Y))).
      set (K := fold_right Nat.mul 1 (ks ++ [features Y; f])).
      set (cl := fun q => conv_loc (conv_of dw ks dil (features Y) f) l q).
      apply (vec_ext (fun t => map2 (plus N)
        (map (fun c => fold_right (plus N) (zero N) (map (fun p => times N (nth (snd p) (tval (kt (X t)) (cl (fst p))) (zero N))
             (nth (flat_loop (fst p ++ [snd p; c]) (ks ++ [features Y; f]) 0) (map (kernel_at (w t)) (range K)) (zero N))) LL)) (range f))
        (map (fun j => bias_at (w t) j) (range f)))).
      { intros t. rewrite B. f_equal. apply map_ext. intros c. f_equal. unfold LL. symmetry.
        apply (flat_map_prod (fun q ch => times N (nth ch (tval (kt (X t)) (cl q)) (zero N))
          (nth (flat_loop (q ++ [ch; c]) (ks ++ [features Y; f]) 0) (map (kernel_at (w t)) (range K)) (zero N)))). }
      replace (map (fun f0 : nat => fold_right (plus D) (zero D) (flat_map (fun w0 : list nat => map (fun ch : nat =>
          times D (nth ch (tval (kt Y) (cl w0)) (zero D))
          (nth (flat_loop (w0 ++ [ch; f0]) (ks ++ [features Y; f]) 0) (map (kernel_at dw) (range K)) (zero D))) (range (features Y))) (raster ks))) (range f))
        with (map (fun c => fold_right (plus D) (zero D) (map (fun p => times D (nth (snd p) (tval (kt Y) (cl (fst p))) (zero D))
             (nth (flat_loop (fst p ++ [snd p; c]) (ks ++ [features Y; f]) 0) (map (kernel_at dw) (range K)) (zero D))) LL)) (range f)).
      2:{ apply map_ext. intros c. f_equal. unfold LL. symmetry.
          apply (flat_map_prod (fun q ch => times D (nth ch (tval (kt Y) (cl q)) (zero D))
          (nth (flat_loop (q ++ [ch; c]) (ks ++ [features Y; f]) 0) (map (kernel_at dw) (range K)) (zero D)))). }
      apply vec_map2.
      + apply (vec_map (fun c t => fold_right (plus N) (zero N) (map (fun p => times N (nth (snd p) (tval (kt (X t)) (cl (fst p))) (zero N))
             (nth (flat_loop (fst p ++ [snd p; c]) (ks ++ [features Y; f]) 0) (map (kernel_at (w t)) (range K)) (zero N))) LL))).
        intros c _. apply (sum_rel (fun p t => times N (nth (snd p) (tval (kt (X t)) (cl (fst p))) (zero N))
             (nth (flat_loop (fst p ++ [snd p; c]) (ks ++ [features Y; f]) 0) (map (kernel_at (w t)) (range K)) (zero N)))).
        intros [q ch] _. cbn [fst snd].
        apply (rel_times (fun t => nth ch (tval (kt (X t)) (cl q)) (zero N))); [apply (A2 (cl q))|].
        apply (vec_map (fun j t => kernel_at (w t) j)). intros j _. apply W1.
      + apply (vec_map (fun j t => bias_at (w t) j)). intros j _. apply W2.
  Qed.

  Lemma same_shape_refl a b : same_shape a b = true <-> a = b.
  Proof. unfold same_shape. destruct (list_eq_dec Nat.eq_dec a b); split; congruence. Qed.

  Lemma add_rel X1 X2 Y1 Y2 : krel X1 Y1 -> krel X2 Y2 -> res_rel krel (fun t => add_layer N (X1 t) (X2 t)) (add_layer D Y1 Y2).
  Proof.
    intros [[A1 A2] A3] [[B1 B2] B3]. unfold add_layer.
    destruct (same_shape (tshape (kt Y1)) (tshape (kt Y2)) && (features Y1 =? features Y2))%bool eqn:E; cbn [res_rel].
    - eexists (fun t => {| kt := {| tshape := tshape (kt (X1 t)); tval := fun l => map2 (plus N) (tval (kt (X1 t)) l) (tval (kt (X2 t)) l) |};
                           features := features (X1 t) |}).
      split; [intros t; now rewrite A1, B1, A3, B3, E|]. split; [|exact A3]. split; [exact A1|]. intros l. cbn [kt tval].
      apply (vec_map2 (fun t => tval (kt (X1 t)) l) (fun t => tval (kt (X2 t)) l)); [apply A2|apply B2].
    - intros t. now rewrite A1, B1, A3, B3, E.
  Qed.

  Lemma concatenate_rel X1 X2 Y1 Y2 : krel X1 Y1 -> krel X2 Y2 ->
    res_rel krel (fun t => concatenate_features (X1 t) (X2 t)) (concatenate_features Y1 Y2).
  Proof.
    intros [[A1 A2] A3] [[B1 B2] B3]. unfold concatenate_features.
    destruct (same_shape (tshape (kt Y1)) (tshape (kt Y2))) eqn:E; cbn [res_rel].
    - eexists (fun t => {| kt := {| tshape := tshape (kt (X1 t)); tval := fun l => tval (kt (X1 t)) l ++ tval (kt (X2 t)) l |};
                           features := features (X1 t) + features (X2 t) |}).
      split; [intros t; now rewrite A1, B1, E|]. split; [|intros t; cbn; now rewrite A3, B3]. split; [exact A1|]. intros l. cbn [kt tval].
      apply (vec_app (fun t => tval (kt (X1 t)) l) (fun t => tval (kt (X2 t)) l)); [apply A2|apply B2].
    - intros t. now rewrite A1, B1, E.
  Qed.

  Lemma bind_rel {A A' B B'} (r1 : (Ix -> A) -> B -> Prop) (r2 : (Ix -> A') -> B' -> Prop) F G (k : Ix -> A -> res A') (k' : B -> res B') :
    res_rel r1 F G -> (forall X Y, r1 X Y -> res_rel r2 (fun t => k t (X t)) (k' Y)) -> res_rel r2 (fun t => bind (F t) (k t)) (bind G k').
  Proof.
    intros H K. destruct G as [Y|e]; cbn [res_rel bind] in *.
    - destruct H as (X & E & HX). specialize (K X Y HX). destruct (k' Y) as [Z|e]; cbn [res_rel] in *.
      + destruct K as (X' & E' & HX'). exists X'. split; [|exact HX']. intros t. rewrite E. apply E'.
      + intros t. rewrite E. apply K.
    - intros t. now rewrite H.
  Qed.

  Lemma ok_rel {A B} (rel : (Ix -> A) -> B -> Prop) X Y : rel X Y -> res_rel rel (fun t => Ok (X t)) (Ok Y).
  Proof. intros H. exists X. split; [reflexivity|exact H]. Qed.

  (** * Machines in one dimension *)
  Definition act_rel (act : option (list T -> list T)) (dact : option (list (U) -> list (U))) : Prop :=
    match act, dact with None, None => True | Some a, Some d => lawful_act a d | _, _ => False end.

  Lemma causal_1d_rel w dw f k dil act dact X Y sk dsk : wrel w dw -> krel X Y -> act_rel act dact ->
    match dsk with None => forall t, sk t = None | Some S' => exists S, (forall t, sk t = Some (S t)) /\ krel S S' end ->
    res_rel krel (fun t => causal_conv_1d N (w t) (X t) f k dil act (sk t)) (causal_conv_1d D dw Y f k dil dact dsk).
  Proof.
    intros HW HX HA HS. unfold causal_conv_1d.
    set (pd := k + (k - 1) * (dil - 1) - 1).
    assert (HP : krel (fun t => if 0 <? pd then zero_pad N [(pd, 0)] (X t) else X t) (if 0 <? pd then zero_pad D [(pd, 0)] Y else Y)).
    { destruct (0 <? pd); [now apply zero_pad_rel|exact HX]. }
    apply (bind_rel krel krel (fun t => conv_layer N (w t) f [k] [dil] (if 0 <? pd then zero_pad N [(pd, 0)] (X t) else X t)) _
      (fun t x => do x0 <- match sk t with Some s => add_layer N x s | None => Ok x end; Ok (match act with Some a => activate a x0 | None => x0 end))).
    { now apply conv_rel. }
    intros X1 Y1 H1.
    apply (bind_rel krel krel (fun t => match sk t with Some s => add_layer N (X1 t) s | None => Ok (X1 t) end) _
      (fun t x0 => Ok (match act with Some a => activate a x0 | None => x0 end))).
    { destruct dsk as [S'|]; cbn in HS.
      - destruct HS as (S & ES & HS). pose proof (add_rel X1 S Y1 S' H1 HS) as HR. destruct (add_layer D Y1 S') as [Z|e]; cbn [res_rel] in *.
        + destruct HR as (X' & E & H'). exists X'. split; [|exact H']. intros t. now rewrite ES.
        + intros t. now rewrite ES.
      - exists X1. split; [|exact H1]. intros t. now rewrite HS. }
    intros X2 Y2 H2. apply (ok_rel krel (fun t => match act with Some a => activate a (X2 t) | None => X2 t end)).
    destruct act as [a|], dact as [d|]; try contradiction; [now apply activate_rel|exact H2].
  Qed.

  Lemma stack_rel p W dW act dact skips : (forall i, wrel (fun t => W t i) (dW i)) -> act_rel act dact -> forall n i dil X Y, krel X Y ->
    res_rel krel (fun t => conv_stack N p (W t) act skips n i dil (X t)) (conv_stack D p dW dact skips n i dil Y).
  Proof.
    intros HW HA n. induction n as [|n IH]; intros i dil X Y HX; cbn [conv_stack]; [now apply ok_rel|].
    apply (bind_rel krel krel (fun t => causal_conv_1d N (W t i) (X t) (num_of_channels p) (ksize p) dil act (if (skips && (0 <? i))%bool then Some (X t) else None)) _
      (fun t x => conv_stack N p (W t) act skips n (S i) (next_dilation p dil) x)).
    - apply causal_1d_rel; auto. destruct (skips && (0 <? i))%bool; [|reflexivity]. exists X. split; [reflexivity|exact HX].
    - intros X1 Y1 H1. now apply IH.
  Qed.

  Lemma features_1d_rel p W dW act dact skips convs filters X Y : (forall i, wrel (fun t => W t i) (dW i)) -> act_rel act dact -> krel X Y ->
    res_rel krel (fun t => conv_net_1d_features N p (W t) act skips convs filters (X t)) (conv_net_1d_features D p dW dact skips convs filters Y).
  Proof.
    intros HW HA HX. unfold conv_net_1d_features.
    apply (bind_rel krel krel (fun t => conv_stack N p (W t) act skips convs 0 1 (X t)) _
      (fun t x => causal_conv_1d N (W t convs) (shift_layer N 0 x) filters 1 1 None None)).
    - now apply stack_rel.
    - intros X1 Y1 H1. apply (causal_1d_rel (fun t => W t convs) (dW convs) filters 1 1 None None (fun t => shift_layer N 0 (X1 t)) _ (fun _ => None) None).
      + apply HW. + now apply shift_rel. + exact Logic.I. + reflexivity.
  Qed.

  (** * The machine in two dimensions *)
  Definition prel (X : Ix -> ktensor T * ktensor T) (Y : ktensor (U) * ktensor (U)) : Prop :=
    krel (fun t => fst (X t)) (fst Y) /\ krel (fun t => snd (X t)) (snd Y).

  Lemma causal_2d_rel p W dW act dact mask X1 Y1 X2 Y2 : (forall i, wrel (fun t => W t i) (dW i)) -> lawful_act act dact -> krel X1 Y1 -> krel X2 Y2 ->
    res_rel prel (fun t => causal_conv_2d_over N p (W t) act mask (X1 t) (X2 t)) (causal_conv_2d_over D p dW dact mask Y1 Y2).
  Proof.
    intros HW HA H1 H2. unfold causal_conv_2d_over. cbv zeta.
    assert (HP : forall sizes X Y, krel X Y -> krel (fun t => if 0 <? ksize2 p - 1 then zero_pad N sizes (X t) else X t)
      (if 0 <? ksize2 p - 1 then zero_pad D sizes Y else Y)).
    { intros sizes X Y H. destruct (0 <? ksize2 p - 1); [now apply zero_pad_rel|exact H]. }
    eapply (bind_rel krel prel (fun t => conv_layer N (W t 0) (channels2 p) [ksize2 p; ksize2 p] [1; 1] _) _ (fun t v => _)).
    { apply conv_rel; [apply HW|apply HP; exact H1]. }
    intros V DV HV.
    eapply (bind_rel krel prel (fun t => conv_layer N (W t 1) (channels2 p) [1; ksize2 p] [1; 1] _) _ (fun t x => _)).
    { apply conv_rel; [apply HW|apply HP; exact H2]. }
    intros X Y H.
    eapply (bind_rel krel prel (fun t => conv_layer N (W t 2) (channels2 p / 2) [1; 1] [1; 1] (if mask then shift_layer N 1 (activate act (X t)) else activate act (X t))) _ (fun t x => _)).
    { apply (conv_rel (fun t => W t 2) (dW 2) _ _ _ (fun t => if mask then shift_layer N 1 (activate act (X t)) else activate act (X t))); [apply HW|].
      destruct mask; [apply shift_rel|]; now apply activate_rel. }
    intros X' Y' H'.
    eapply (bind_rel krel prel (fun t => conv_layer N (W t 3) (channels2 p / 2) [1; 1] [1; 1] (shift_layer N 0 (activate act (V t)))) _ (fun t y => _)).
    { apply (conv_rel (fun t => W t 3) (dW 3) _ _ _ (fun t => shift_layer N 0 (activate act (V t)))); [apply HW|]. apply shift_rel. now apply activate_rel. }
    intros X3 Y3 H3.
    eapply (bind_rel krel prel (fun t => concatenate_features (activate act (X' t)) (activate act (X3 t))) _ (fun t x => _)).
    { apply concatenate_rel; now apply activate_rel. }
    intros X4 Y4 H4.
    eapply (bind_rel krel prel (fun t => conv_layer N (W t 4) (channels2 p) [ksize2 p; ksize2 p] [1; 1]
      (if 0 <? ksize2 p - 1 then zero_pad N [(ksize2 p - 1, 0); (ksize2 p - 1, 0)] (X4 t) else X4 t)) _ (fun t h => _)).
    { apply (conv_rel (fun t => W t 4) (dW 4) _ _ _ (fun t => if 0 <? ksize2 p - 1 then zero_pad N [(ksize2 p - 1, 0); (ksize2 p - 1, 0)] (X4 t) else X4 t)); [apply HW|].
      now apply HP. }
    intros X5 Y5 H5. apply (ok_rel prel (fun t => (V t, X5 t))). split; assumption.
  Qed.

  Lemma residual_block_rel p W dW act dact X1 Y1 X2 Y2 : (forall i j, wrel (fun t => W t i j) (dW i j)) -> lawful_act act dact -> krel X1 Y1 -> krel X2 Y2 ->
    res_rel prel (fun t => residual_block_over N p (W t) act (X1 t) (X2 t)) (residual_block_over D p dW dact Y1 Y2).
  Proof.
    intros HW HA H1 H2. unfold residual_block_over.
    eapply (bind_rel prel prel (fun t => causal_conv_2d_over N p (W t 0) act false (X1 t) (X2 t)) _ (fun t vh => _)).
    { apply (causal_2d_rel p (fun t => W t 0)); auto. }
    intros P Q [HP1 HP2].
    eapply (bind_rel prel prel (fun t => causal_conv_2d_over N p (W t 1) act false (activate act (fst (P t))) (activate act (snd (P t)))) _ (fun t vh => _)).
    { apply (causal_2d_rel p (fun t => W t 1) (dW 1) act dact false (fun t => activate act (fst (P t))) _ (fun t => activate act (snd (P t)))); auto; now apply activate_rel. }
    intros P' Q' [HP1' HP2'].
    eapply (bind_rel krel prel (fun t => add_layer N (X1 t) (fst (P' t))) _ (fun t v => _)).
    { now apply add_rel. }
    intros V DV HV.
    eapply (bind_rel krel prel (fun t => add_layer N (X2 t) (snd (P' t))) _ (fun t h => _)).
    { now apply add_rel. }
    intros X Y H. apply (ok_rel prel (fun t => (activate act (V t), activate act (X t)))). split; now apply activate_rel.
  Qed.

  Lemma residual_blocks_rel p W dW act dact : (forall i j, wrel (fun t => W t i j) (dW i j)) -> lawful_act act dact -> forall n i X1 Y1 X2 Y2,
    krel X1 Y1 -> krel X2 Y2 -> res_rel prel (fun t => residual_blocks_over N p (W t) act n i (X1 t) (X2 t)) (residual_blocks_over D p dW dact n i Y1 Y2).
  Proof.
    intros HW HA n. induction n as [|n IH]; intros i X1 Y1 X2 Y2 H1 H2; cbn [residual_blocks_over].
    - apply (ok_rel prel (fun t => (X1 t, X2 t))). now split.
    - eapply (bind_rel prel prel (fun t => residual_block_over N p (fun j => W t (2 * i + j + 1)) act (X1 t) (X2 t)) _ (fun t vh => _)).
      { apply (residual_block_rel p (fun t j => W t (2 * i + j + 1))); auto. }
      intros P Q [HP1 HP2]. apply (IH (S i) (fun t => fst (P t)) _ (fun t => snd (P t))); assumption.
  Qed.

  Lemma features_2d_rel p W dW wl dwl act dact X Y : (forall i j, wrel (fun t => W t i j) (dW i j)) -> wrel wl dwl -> lawful_act act dact -> krel X Y ->
    res_rel krel (fun t => conv_net_2d_features N p (W t) (wl t) act (X t)) (conv_net_2d_features D p dW dwl dact Y).
  Proof.
    intros HW HL HA H. unfold conv_net_2d_features.
    eapply (bind_rel prel krel (fun t => causal_conv_2d_over N p (W t 0) act false (X t) (X t)) _ (fun t vh => _)).
    { apply (causal_2d_rel p (fun t => W t 0)); auto. }
    intros P Q [HP1 HP2].
    eapply (bind_rel prel krel (fun t => residual_blocks_over N p (W t) act (depth2 p - 2) 0 (activate act (fst (P t))) (activate act (snd (P t)))) _ (fun t vh => _)).
    { apply (residual_blocks_rel p W dW act dact HW HA _ _ (fun t => activate act (fst (P t))) _ (fun t => activate act (snd (P t)))); now apply activate_rel. }
    intros P' Q' [HP1' HP2'].
    eapply (bind_rel prel krel (fun t => causal_conv_2d_over N p (W t (2 * (depth2 p - 2) + 1)) act true (fst (P' t)) (snd (P' t))) _ (fun t vh => _)).
    { apply (causal_2d_rel p (fun t => W t (2 * (depth2 p - 2) + 1)) _ act dact true (fun t => fst (P' t)) _ (fun t => snd (P' t))); auto. }
    intros P3 Q3 [HP3 HP3']. apply (conv_rel wl dwl 4 [1; 1] [1; 1] (fun t => activate act (snd (P3 t)))); [exact HL|]. now apply activate_rel.
  Qed.

  Lemma input_rel (of_Z : Z -> T) (of_Z' : Z -> U) (A : tensor Z) : (forall z, entry (fun _ => of_Z z) (of_Z' z)) ->
    krel (fun _ => expand_and_cast of_Z A) (expand_and_cast of_Z' A).
  Proof.
    intros H. split; [|reflexivity]. split; [reflexivity|]. intros l. cbn [expand_and_cast kt tval].
    apply (vec_map (fun z (_ : Ix) => of_Z z) of_Z' [tval A l]). intros z _. apply H.
  Qed.
End Relation.
