(** The layers of the custom ordering machine compute what the machine computes. Its Reshape layers have no usable topology, so the layers are
    compared with the same layers with a working one. *)
From Coq Require Import List ZArith Arith Bool Reals Lia.
From Verif Require Import Base Cplx OrderingModel OrderingSpec OrderingProofs TensorModel TopologyModel TopologySpec TopologyProofs
  AutoregressiveModel AutoregressiveSpec AutoregressiveProofs MachinesModel MachinesSpec MachinesProofs GraphModel GraphSpec GraphProofs
  FastMachineModel FastMachineSpec FastMachineProofs FastMachineBuildProofs FastMachineEndProofs.
Import ListNotations.

(** * Layers that differ in their topology only *)
Definition same_layer (L L' : klayer) : Prop :=
  lfeatures L = lfeatures L' /\ ldtype L = ldtype L' /\ inbound (body L) = inbound (body L') /\ out_shape (body L) = out_shape (body L') /\
  run (body L) = run (body L').
Definition same_graph (S S' : graph) : Prop := Forall2 same_layer S S'.
Definition same_result (r r' : res (graph * nat)) : Prop :=
  match r, r' with
  | Ok r, Ok r' => snd r = snd r' /\ same_graph (fst r) (fst r')
  | Err e, Err e' => e = e'
  | _, _ => False
  end.
Definition respects (G : graph -> nat -> res (graph * nat)) : Prop := forall S S' x, same_graph S S' -> same_result (G S x) (G S' x).

Lemma same_layer_refl L : same_layer L L. Proof. unfold same_layer. auto. Qed.
Lemma same_graph_refl S : same_graph S S. Proof. induction S; constructor; auto using same_layer_refl. Qed.
Lemma same_length S S' : same_graph S S' -> length S = length S'.
Proof. induction 1; cbn; congruence. Qed.
Lemma same_call S S' L L' : same_graph S S' -> same_layer L L' -> same_result (call_layer S L) (call_layer S' L').
Proof. intros H HL. split; [now apply same_length|]. apply Forall2_app; [exact H|]. constructor; [exact HL|constructor]. Qed.
Lemma same_info S S' x : same_graph S S' -> match info S x, info S' x with Ok L, Ok L' => same_layer L L' | Err e, Err e' => e = e' | _, _ => False end.
Proof.
  intros H. revert x. unfold info. induction H as [|L L' S S' HL _ IH]; intros [|x]; cbn [nth_error]; [reflexivity|reflexivity|exact HL|apply IH].
Qed.
Lemma same_bind r r' (G G' : graph * nat -> res (graph * nat)) : same_result r r' -> (forall S S' h, same_graph S S' -> same_result (G (S, h)) (G' (S', h))) ->
  same_result (do p <- r; G p) (do p <- r'; G' p).
Proof.
  intros H HG. destruct r as [[S h]|e], r' as [[S' h']|e']; cbn [same_result bind] in *; try contradiction; [|exact H].
  cbn [fst snd] in H. destruct H as [<- H]. now apply HG.
Qed.

Ltac infos H x := let K := fresh "K" in pose proof (same_info _ _ x H) as K;
  let L := fresh "L" in let L' := fresh "L'" in
  destruct (info _ x) as [L|], (info _ x) as [L'|]; cbn [bind]; try contradiction; [|exact K].
Ltac layer H := apply same_call; [exact H|]; unfold same_layer; cbn [body lfeatures ldtype inbound out_shape run].

Lemma one_to_one_respects f n d : respects (fun S x => one_to_one S x f n d).
Proof.
  intros S S' x H. unfold one_to_one. infos H x. destruct K as (K1 & K2 & K3 & K4 & K5). layer H. rewrite K4. repeat (split; [reflexivity|]). reflexivity.
Qed.
Lemma expand_respects : respects expand_input_dim.
Proof. intros S S' x H. unfold expand_input_dim. infos H x. destruct K as (K1 & K2 & K3 & K4 & K5). layer H. rewrite K4, K2. repeat (split; [reflexivity|]). reflexivity. Qed.
Lemma cast_respects {T} (N : number_type T) f : respects (cast N f).
Proof.
  intros S S' x H. unfold cast. pose proof (same_info _ _ x H) as K. destruct (info S x) as [L|], (info S' x) as [L'|]; cbn [bind]; try contradiction; [|exact K].
  rewrite (proj1 K). now apply one_to_one_respects.
Qed.
Lemma activation_respects {T} (N : number_type T) act : respects (activation_layer N act).
Proof.
  intros S S' x H. unfold activation_layer. pose proof (same_info _ _ x H) as K. destruct (info S x) as [L|], (info S' x) as [L'|]; cbn [bind]; try contradiction; [|exact K].
  rewrite (proj1 K). now apply one_to_one_respects.
Qed.
Lemma normalize_respects : respects normalize_layer.
Proof.
  intros S S' x H. unfold normalize_layer. pose proof (same_info _ _ x H) as K. destruct (info S x) as [L|], (info S' x) as [L'|]; cbn [bind]; try contradiction; [|exact K].
  rewrite (proj1 K). now apply one_to_one_respects.
Qed.
Lemma log_probs_respects : respects log_probs_layer.
Proof.
  intros S S' x H. unfold log_probs_layer. pose proof (same_info _ _ x H) as K. destruct (info S x) as [L|], (info S' x) as [L'|]; cbn [bind]; try contradiction; [|exact K].
  rewrite (proj1 K). now apply one_to_one_respects.
Qed.
Lemma to_complex_respects : respects to_complex_layer.
Proof.
  intros S S' x H. unfold to_complex_layer. pose proof (same_info _ _ x H) as K. destruct (info S x) as [L|], (info S' x) as [L'|]; cbn [bind]; try contradiction; [|exact K].
  rewrite (proj1 K). destruct (_ =? 0); [now apply one_to_one_respects|reflexivity].
Qed.
Lemma padding_respects p : respects (padding_layer p).
Proof.
  intros S S' x H. unfold padding_layer. infos H x. destruct K as (K1 & K2 & K3 & K4 & K5). layer H. rewrite K1, K2, K4. repeat (split; [reflexivity|]). reflexivity.
Qed.
Lemma shift_respects d : respects (shift_klayer d).
Proof.
  intros S S' x H. unfold shift_klayer. infos H x. destruct K as (K1 & K2 & K3 & K4 & K5). layer H. rewrite K1, K2, K4. repeat (split; [reflexivity|]). reflexivity.
Qed.
Lemma conv_respects {T} (N : number_type T) w f k d : respects (conv_klayer N w f k d).
Proof.
  intros S S' x H. unfold conv_klayer. infos H x. destruct K as (K1 & K2 & K3 & K4 & K5). cbv zeta. rewrite K1, K4.
  destruct (existsb _ _); [reflexivity|]. layer H. repeat (split; [reflexivity|]). reflexivity.
Qed.
Lemma add_respects {T} (N : number_type T) S S' x y : same_graph S S' -> same_result (add_klayer N S x y) (add_klayer N S' x y).
Proof.
  intros H. unfold add_klayer. pose proof (same_info _ _ x H) as K. pose proof (same_info _ _ y H) as Q.
  destruct (info S x) as [L|], (info S' x) as [L'|]; cbn [bind]; try contradiction; [|exact K].
  destruct (info S y) as [J|], (info S' y) as [J'|]; cbn [bind]; try contradiction; [|exact Q].
  destruct K as (K1 & K2 & K3 & K4 & K5). destruct Q as (Q1 & Q2 & Q3 & Q4 & Q5). rewrite K1, K4, Q1, Q4.
  destruct (_ && _)%bool; [|reflexivity]. layer H. repeat (split; [reflexivity|]). reflexivity.
Qed.
Lemma gather_respects i : respects (gather_klayer i).
Proof.
  intros S S' x H. unfold gather_klayer. infos H x. destruct K as (K1 & K2 & K3 & K4 & K5). layer H. rewrite K1, K2, K4. repeat (split; [reflexivity|]). reflexivity.
Qed.

Lemma causal_respects {T} (N : number_type T) w f k d act skip : respects (fun S x => causal_conv_1d_graph N w S x f k d act skip).
Proof.
  intros S S' x H. unfold causal_conv_1d_graph. apply same_bind.
  { destruct (0 <? _); [now apply padding_respects|split; [reflexivity|exact H]]. }
  clear S S' x H. intros S S' x H. cbn [fst snd]. apply same_bind; [now apply conv_respects|].
  clear S S' x H. intros S S' x H. cbn [fst snd]. apply same_bind.
  { destruct skip; [now apply add_respects|split; [reflexivity|exact H]]. }
  clear S S' x H. intros S S' x H. cbn [fst snd]. destruct act; [now apply activation_respects|split; [reflexivity|exact H]].
Qed.
Lemma stack_respects {T} (N : number_type T) p W act skips n : forall i d, respects (conv_stack_graph N p W act skips n i d).
Proof.
  induction n as [|n IH]; intros i d S S' x H; cbn [conv_stack_graph]; [split; [reflexivity|exact H]|].
  apply same_bind; [now apply causal_respects|]. clear S S' x H. intros S S' x H. cbn [fst snd]. now apply IH.
Qed.
Lemma conv_net_respects p W act : respects (conv_net_1d_graph p W act).
Proof.
  intros S S' x H. unfold conv_net_1d_graph. apply same_bind; [now apply stack_respects|].
  clear S S' x H. intros S S' x H. cbn [fst snd]. apply same_bind; [now apply shift_respects|].
  clear S S' x H. intros S S' x H. cbn [fst snd]. apply same_bind; [now apply causal_respects|].
  clear S S' x H. intros S S' x H. cbn [fst snd]. now apply to_complex_respects.
Qed.

(** Reshape with a topology that works. *)
Definition reshape_fixed (target : list nat) (S : graph) (x : nat) : res (graph * nat) :=
  do L <- info S x;
  let shape := out_shape (body L) in
  if fold_right Nat.mul 1 shape =? fold_right Nat.mul 1 target then
    call_layer S {| body := {| inbound := [x]; out_shape := target;
                               get_spatial_dependency := reshape_dependencies (shape ++ [lfeatures L]) (map Z.of_nat (target ++ [lfeatures L]));
                               apply_single := fun _ vs => first_value vs; run := run1 (reshape target) |};
                    lfeatures := lfeatures L; ldtype := ldtype L |}
  else Err ValueError.
Lemma reshape_same target S S' x : same_graph S S' -> same_result (reshape_klayer target S x) (reshape_fixed target S' x).
Proof.
  intros H. unfold reshape_klayer, reshape_fixed. infos H x. destruct K as (K1 & K2 & K3 & K4 & K5). cbv zeta. rewrite K4. destruct (_ =? _); [|reflexivity].
  layer H. rewrite K1, K2. repeat (split; [reflexivity|]). reflexivity.
Qed.
Definition custom_fixed (ordering : list loc) (p : params_1d) (W : nat -> weights R) (act : option (list R -> list R))
    (S : graph) (x : nat) : res (graph * nat) :=
  do L <- info S x;
  let input_shape := out_shape (body L) in
  do Sx <- expand_input_dim S x;
  do Sx <- reshape_fixed [fold_right Nat.mul 1 input_shape] (fst Sx) (snd Sx);
  do Sx <- gather_klayer (to_flat_ordering ordering input_shape) (fst Sx) (snd Sx);
  do Sx <- cast real_type IZR (fst Sx) (snd Sx);
  do Sx <- conv_net_1d_graph p W act (fst Sx) (snd Sx);
  do inverse <- to_flat_inverse_ordering (OList ordering) input_shape;
  do Sx <- gather_klayer inverse (fst Sx) (snd Sx);
  reshape_fixed input_shape (fst Sx) (snd Sx).
Lemma custom_same o p W act shape : same_result (conditional_log_probs_graph (custom_ordering_graph o p W act) false shape)
  (conditional_log_probs_graph (custom_fixed o p W act) false shape).
Proof.
  unfold conditional_log_probs_graph. apply same_bind.
  - unfold custom_ordering_graph, custom_fixed. cbn [info nth_error bind input_klayer body out_shape].
    apply same_bind; [apply expand_respects; apply same_graph_refl|].
    intros S S' x H. cbn [fst snd]. apply same_bind; [now apply reshape_same|].
    clear S S' x H. intros S S' x H. cbn [fst snd]. apply same_bind; [now apply gather_respects|].
    clear S S' x H. intros S S' x H. cbn [fst snd]. apply same_bind; [now apply cast_respects|].
    clear S S' x H. intros S S' x H. cbn [fst snd]. apply same_bind; [now apply conv_net_respects|].
    clear S S' x H. intros S S' x H. cbn [fst snd]. destruct (to_flat_inverse_ordering (OList o) shape) as [inv|]; cbn [bind]; [|reflexivity].
    apply same_bind; [now apply gather_respects|].
    clear S S' x H. intros S S' x H. cbn [fst snd]. now apply reshape_same.
  - intros S S' x H. cbn [fst snd bind]. apply same_bind; [now apply normalize_respects|].
    clear S S' x H. intros S S' x H. cbn [fst snd]. now apply log_probs_respects.
Qed.

Lemma same_forward d : forall S S' ts, same_graph S S' -> forward_from d (map body S) ts = forward_from d (map body S') ts.
Proof.
  intros S S' ts H. revert ts. induction H as [|L L' S S' (H1 & H2 & H3 & H4 & H5) _ IH]; intros ts; cbn [map forward_from]; [reflexivity|].
  rewrite H3, H5. apply IH.
Qed.
Lemma same_predict S S' h x : same_graph S S' -> predict (keras_model (S, h)) x = predict (keras_model (S', h)) x.
Proof.
  intros H. unfold predict, forward. cbn [keras_model klayers output fst snd]. f_equal.
  destruct H as [|L L' S S' HL H]; [reflexivity|]. cbn [map tl]. now apply same_forward.
Qed.

(** * Building the layers with the working topology *)
Section Build.
Context (shape : list nat) (T0 : loc -> Z) (x : tensor value).
Notation computes := (computes x).
Notation later := (later shape T0 x).
Notation builds := (builds shape T0 x).
Notation good := (good shape T0).

Lemma dot_zeros n : forall l, dot (repeat 0%Z n) l = 0%Z.
Proof. induction n as [|n IH]; intros [|i l]; cbn [repeat dot]; [reflexivity..|]. rewrite IH. lia. Qed.

Lemma reshape_builds {T} (N : number_type T) S Ts h (t : ktensor T) r c target : lawful N -> good S Ts -> computes N S Ts h t (repeat 0%Z r) c ->
  volume target = volume (tshape (kt t)) -> Forall (fun n => 0 < n) target ->
  builds N S Ts (reshape_fixed target S h) (Ok {| kt := reshape target (kt t); features := features t |}) (repeat 0%Z (length target)) c.
Proof.
  intros LN G HC HV HP. destruct (info_ok _ _ _ _ _ _ _ _ HC) as (L & EL & E1 & E2 & E3). unfold reshape_fixed. rewrite EL. cbn [bind]. cbv zeta. rewrite E3, E1, E2.
  change (fold_right Nat.mul 1 target) with (volume target). change (fold_right Nat.mul 1 (tshape (kt t))) with (volume (tshape (kt t))).
  rewrite HV, Nat.eqb_refl. apply builds_layer; [exact G|].
  eapply (add_one shape T0 x N N); try eassumption; try reflexivity;
    cbn [body out_shape inbound get_spatial_dependency apply_single run run1 lfeatures ldtype features kt reshape tshape].
  - now rewrite repeat_length.
  - intros u Eu Hu. split; [reflexivity|]. pose proof (reshape_agrees u target (features t)) as A. rewrite Eu in A. specialize (A HV). split; [|exact A].
    intros l Hl. destruct (A l Hl) as (ds & vs & _ & HVs & HA). destruct vs as [|v vs]; [discriminate HA|]. cbn [first_value] in HA. assert (HA' : v = tval (reshape target u) l) by congruence. rewrite <- HA'. clear HA HA'.
    inversion HVs as [|d ? ? ? (u' & Hu' & Hs & ->) _]; subst. destruct (input_index d) as [|[|j]]; [|discriminate|discriminate].
    injection Hu' as <-. apply LN. now apply Hu.
  - intros l ds d Hl Ed Hd Hi Hs. rewrite !dot_zeros. lia.
  - intros u [Eu Hu]. split; [reflexivity|]. intros l. cbn [reshape tval]. rewrite Eu. apply Hu.
Qed.

Definition gathered {V} (indices : list nat) (t : tensor V) : tensor V :=
  {| tshape := upd (tshape t) 0 (length indices); tval := fun l => tval t (upd l 0 (nth (nth 0 l 0) indices 0)) |}.
Lemma gathered_ok {V} indices (t : tensor V) n : tshape t = [n] -> forallb (fun i => i <? n) indices = true -> gather_axis 0 indices t = Ok (gathered indices t).
Proof. intros E F. unfold gather_axis. rewrite E. cbn [nth]. rewrite F. unfold gathered. now rewrite E. Qed.

Lemma gather_builds {T} (N : number_type T) S Ts h (t : ktensor T) c c' coef n indices : lawful N -> good S Ts -> computes N S Ts h t coef c ->
  tshape (kt t) = [n] -> forallb (fun i => i <? n) indices = true -> 0 < length indices -> (forall l, in_shape [n] l -> (dot coef l + c <= c')%Z) ->
  builds N S Ts (gather_klayer indices S h) (Ok {| kt := gathered indices (kt t); features := features t |}) [0%Z] c'.
Proof.
  intros LN G HC EN HI HP HB. destruct (info_ok _ _ _ _ _ _ _ _ HC) as (L & EL & E1 & E2 & E3). unfold gather_klayer. rewrite EL. cbn [bind]. cbv zeta. rewrite E3, E1, E2, EN.
  apply builds_layer; [exact G|].
  eapply (add_one shape T0 x N N); try eassumption; try reflexivity;
    cbn [body out_shape inbound get_spatial_dependency apply_single run run1 lfeatures ldtype features kt gathered tshape].
  - now rewrite EN.
  - rewrite EN. cbn [upd]. constructor; [exact HP|constructor].
  - rewrite EN. reflexivity.
  - intros u Eu Hu. rewrite EN in Eu. rewrite (gathered_ok indices u n Eu HI). split; [cbn [gathered tshape]; now rewrite Eu|].
    pose proof (gather_layer_agrees 0 indices u (gathered indices u)) as A. rewrite Eu in A. specialize (A ltac:(cbn; lia) (gathered_ok indices u n Eu HI)).
    change (Z.of_nat 0 + 1)%Z with 1%Z in A. split; [|exact A]. intros l Hl.
    assert (Hl' : in_shape (tshape (gathered indices u)) l) by (cbn [gathered tshape]; rewrite Eu; exact Hl).
    destruct (A l Hl') as (ds & vs & _ & HVs & HA). destruct vs as [|v vs]; [discriminate HA|]. cbn [first_value] in HA. assert (HA' : v = tval (gathered indices u) l) by congruence. rewrite <- HA'. clear HA HA'.
    inversion HVs as [|d ? ? ? (u' & Hu' & Hs & ->) _]; subst. destruct (input_index d) as [|[|j]]; [|discriminate|discriminate].
    injection Hu' as <-. apply LN. now apply Hu.
  - intros l ds d Hl Ed Hd Hi Hs. rewrite EN in Hs. specialize (HB _ Hs). destruct l as [|i [|j l]]; cbn [dot]; lia.
  - intros u [Eu Hu]. rewrite EN in Eu. rewrite (gathered_ok indices u n Eu HI). split; [cbn [gathered tshape]; now rewrite Eu, EN|].
    intros l. cbn [gathered tval]. apply Hu.
Qed.
End Build.

Lemma volume_positive shape : 0 < volume shape -> Forall (fun n => 0 < n) shape.
Proof. induction shape as [|n shape IH]; intros H; [constructor|]. change (volume (n :: shape)) with (n * volume shape) in H. constructor; [nia|]. apply IH. nia. Qed.

Lemma custom_fixed_value o p W act shape s : 1 <= ksize p -> 0 < volume shape -> ordering_of shape o -> optionally keeps_length act ->
  exists out S h, custom_ordering_net o p W act (input_array shape s) = Ok out /\ tshape out = shape /\
    conditional_log_probs_graph (custom_fixed o p W act) false shape = Ok (S, h) /\
    (exists L, nth_error S h = Some L /\ out_shape (body L) = shape /\ lfeatures L = 2 /\ ldtype L = TReal) /\
    forall l, tval (predict (keras_model (S, h)) (network_input shape s)) l = VReals (map (fun z => (Re z * 2)%R) (normalize_complex 2 (tval out l))).
Proof.
  intros Hk Hn HO HA. destruct (inverse_ordering_ok shape o HO) as (inv & Einv & Linv & Sinv). pose proof (flat_perm shape o HO) as P.
  set (n := volume shape) in *. set (flat := to_flat_ordering o shape) in *.
  assert (Lf : length flat = n) by (apply Permutation.Permutation_length in P; now rewrite range_length in P).
  assert (Bf : forallb (fun i => i <? n) flat = true).
  { apply forallb_forall. intros i Hi. apply Nat.ltb_lt. apply in_range. eapply Permutation.Permutation_in; eauto. }
  assert (Binv : forallb (fun i => i <? n) inv = true).
  { apply forallb_forall. intros i Hi. apply Nat.ltb_lt. apply In_nth_error in Hi. destruct Hi as [q Hq].
    assert (Hqn : q < n) by (rewrite <- Linv; apply nth_error_Some; congruence).
    assert (Hin : In q flat). { eapply Permutation.Permutation_in; [symmetry; exact P|]. now apply in_range. }
    apply In_nth_error in Hin. destruct Hin as [k Hk']. pose proof (Sinv _ _ Hk') as E. rewrite Hq in E.
    injection E as ->. rewrite <- Lf. apply nth_error_Some. congruence. }
  destruct (custom_ordering_causal shape o p W act Hk Hn HO) as [HW _]. destruct (HW s) as (out & Eout & ES & _).
  pose proof (volume_positive shape Hn) as HP.
  set (T0 := dot (repeat 0%Z (length shape))). set (x := network_input shape s).
  pose proof int_lawful as LI. pose proof real_lawful as LR. pose proof complex_lawful as LC.
  pose proof (input_computes shape (repeat 0%Z (length shape)) s HP ltac:(now rewrite repeat_length)) as C0'. fold x in C0'.
  assert (B : builds shape T0 x complex_type [input_klayer shape] [T0] (custom_fixed o p W act [input_klayer shape] 0)
     (Ok {| kt := out; features := 2 |}) (repeat 0%Z (length shape)) (Z.of_nat n)).
  { unfold custom_fixed. cbn [info nth_error bind input_klayer body out_shape]. fold flat. change (fold_right Nat.mul 1 shape) with n.
    pose proof (expand_builds shape T0 x [input_klayer shape] [T0] 0 (input_array shape s) _ 0 (good_input shape T0) C0') as B1.
    destruct B1 as (S1 & Ts1 & h1 & -> & LA1 & Q1). cbn [bind fst snd].
    pose proof (reshape_builds shape T0 x int_type S1 Ts1 h1 _ _ _ [n] LI (proj1 LA1) Q1 ltac:(cbn [kt on_values tshape input_array volume fold_right]; fold (volume shape); fold n; lia)
       ltac:(constructor; [exact Hn|constructor])) as B2.
    destruct B2 as (S2 & Ts2 & h2 & -> & LA2 & Q2). cbn [bind fst snd]. cbn [kt features length repeat] in Q2.
    pose proof (gather_builds shape T0 x int_type S2 Ts2 h2 _ 0 0 _ n flat LI (proj1 LA2) Q2 eq_refl Bf ltac:(lia)) as B3.
    destruct B3 as (S3 & Ts3 & h3 & -> & LA3 & Q3). { intros l Hl. destruct l as [|i [|j l]]; cbn [dot]; lia. } cbn [bind fst snd features kt] in *.
    set (x1 := gathered flat (reshape [n] (input_array shape s))).
    change (gathered flat (reshape [n] (on_values (fun z => [z]) (input_array shape s)))) with (on_values (fun z : Z => [z]) x1) in Q3.
    pose proof (cast_builds shape T0 x real_type IZR S3 Ts3 h3 x1 _ _ LR (proj1 LA3) Q3) as B4.
    destruct B4 as (S4 & Ts4 & h4 & -> & LA4 & Q4). cbn [bind fst snd].
    assert (Q4' : computes x real_type S4 Ts4 h4 (expand_and_cast IZR x1) [1%Z] 0).
    { eapply computes_weaken; [exact Q4|reflexivity|]. intros [|i [|j l]] _; cbn [dot]; lia. }
    pose proof (conv_net_1d_builds shape T0 x p W act S4 Ts4 h4 _ HA (proj1 LA4) Q4') as B5.
    unfold custom_ordering_net in Eout. cbn [input_array tshape] in Eout. change (fold_right Nat.mul 1 shape) with n in Eout. fold flat in Eout.
    rewrite (gathered_ok flat (reshape [n] (input_array shape s)) n eq_refl Bf) in Eout. cbn [bind] in Eout. fold x1 in Eout.
    destruct (conv_net_1d p W act (expand_and_cast IZR x1)) as [u|e] eqn:E5; [|discriminate Eout]. cbn [bind] in Eout.
    destruct B5 as (S5 & Ts5 & h5 & -> & LA5 & Q5). cbn [bind fst snd]. rewrite Einv in Eout |- *. cbn [bind] in Eout |- *.
    assert (Su : tshape u = [n]).
    { destruct (conv_net_1d_agree p W act n 0 (expand_and_cast IZR x1) (expand_and_cast IZR x1)) as (u1 & v1 & E1 & _ & S1' & _); auto.
      - assert (Sx : tshape x1 = [n]) by (unfold x1; cbn [gathered tshape reshape upd]; now rewrite Lf).
        split; [exact Sx|]. split; [exact Sx|]. split; [reflexivity|]. reflexivity.
      - rewrite E5 in E1. injection E1 as <-. exact S1'. }
    rewrite (gathered_ok inv u n Su Binv) in Eout. cbn [bind gathered tshape] in Eout. rewrite Su in Eout. cbn [upd fold_right] in Eout.
    rewrite Linv, Nat.mul_1_r, Nat.eqb_refl in Eout. injection Eout as Eout.
    pose proof (gather_builds shape T0 x complex_type S5 Ts5 h5 _ (-1) (Z.of_nat n) _ n inv LC (proj1 LA5) Q5 Su Binv ltac:(lia)) as B6.
    destruct B6 as (S6 & Ts6 & h6 & -> & LA6 & Q6).
    { intros l Hl. inversion Hl as [|i ? l' ? Hi Hl']; subst. inversion Hl'; subst. cbn [dot]. lia. }
    cbn [bind fst snd features kt] in *.
    pose proof (reshape_builds shape T0 x complex_type S6 Ts6 h6 _ 1 _ shape LC (proj1 LA6) Q6) as B7.
    cbn [kt features] in B7. specialize (B7 ltac:(cbn [gathered tshape]; rewrite Su; cbn [upd volume fold_right]; fold (volume shape); fold n; lia) HP).
    rewrite <- Eout. eapply builds_later; [|exact B7].
    eapply later_trans; [exact LA1|]. eapply later_trans; [exact LA2|]. eapply later_trans; [exact LA3|]. eapply later_trans; [exact LA4|].
    eapply later_trans; [exact LA5|exact LA6]. }
  destruct B as (S1 & T1 & h1 & EG & LA1 & Q1).
  set (coef := repeat 0%Z (length shape)) in *.
  assert (B2 : builds shape T0 x complex_type S1 T1 (normalize_layer S1 h1) (Ok {| kt := on_values (normalize_complex 2) out; features := 2 |}) coef (Z.of_nat n)).
  { unfold normalize_layer. destruct (info_ok x complex_type S1 T1 h1 _ _ _ Q1) as (L & -> & E1 & _). cbn [bind]. rewrite E1. cbn [features].
    apply (one_to_one_builds shape T0 x complex_type complex_type S1 T1 h1 _ coef (Z.of_nat n) _ (normalize_complex 2) 2 LC LC (proj1 LA1) Q1); [reflexivity|].
    intros a Ha. rewrite normalize_complex_length. exact Ha. }
  destruct B2 as (S2 & T2 & h2 & EN & LA2 & Q2).
  assert (B3 : builds shape T0 x real_type S2 T2 (log_probs_layer S2 h2)
     (Ok {| kt := on_values (map (fun z => (Re z * 2)%R)) (on_values (normalize_complex 2) out); features := 2 |}) coef (Z.of_nat n)).
  { unfold log_probs_layer. destruct (info_ok x complex_type S2 T2 h2 _ _ _ Q2) as (L & -> & E1 & _). cbn [bind]. rewrite E1. cbn [features].
    apply (one_to_one_builds shape T0 x complex_type real_type S2 T2 h2 _ coef (Z.of_nat n) _ (map (fun z => (Re z * 2)%R)) 2 LC LR (proj1 LA2) Q2); [reflexivity|].
    intros a Ha. rewrite map_length. exact Ha. }
  destruct B3 as (S & Ts & h & EP & LA3 & (L & Th & u & H1 & H2 & H3 & H4 & H5 & H6 & H7 & H8 & H9 & H10)).
  exists out, S, h. split; [exact Eout|]. split; [exact ES|].
  split; [unfold conditional_log_probs_graph; rewrite EG; cbn [bind fst snd]; rewrite EN; cbn [bind fst snd]; exact EP|].
  split; [exists L; cbn [kt on_values tshape features] in *; rewrite ES in H6; auto|].
  intros l. unfold predict, forward. cbn [keras_model klayers output fst snd].
  change (forward_from x (tl (map body S)) [x]) with (evals S x). rewrite (nth_error_nth (evals S x) h x H3). now rewrite (proj2 H10 l).
Qed.

Lemma custom_graph o p W act shape : 1 <= ksize p -> 0 < volume shape -> ordering_of shape o -> optionally keeps_length act ->
  exists S h, conditional_log_probs_graph (custom_ordering_graph o p W act) false shape = Ok (S, h) /\
    (exists L, nth_error S h = Some L /\ out_shape (body L) = shape /\ lfeatures L = 2 /\ ldtype L = TReal) /\
    forall s i, i < volume shape -> tval (predict (keras_model (S, h)) (network_input shape s)) (location shape i) =
      VReals (conditional_log_probs (conditionals (custom_ordering_net o p W act) shape) s i).
Proof.
  intros Hk Hn HO HA. pose proof (custom_same o p W act shape) as SR.
  destruct (custom_fixed_value o p W act shape [] Hk Hn HO HA) as (out0 & S0 & h0 & _ & _ & EF & (L0 & N0 & O0 & F0 & D0) & _). rewrite EF in SR.
  destruct (conditional_log_probs_graph (custom_ordering_graph o p W act) false shape) as [[S h]|e]; [|contradiction].
  cbn [same_result fst snd] in SR. destruct SR as [-> SG]. exists S, h0. split; [reflexivity|]. split.
  - pose proof (same_info S S0 h0 SG) as K. unfold info in K. rewrite N0 in K. destruct (nth_error S h0) as [L|]; [|contradiction].
    destruct K as (K1 & K2 & K3 & K4 & K5). exists L. split; [reflexivity|]. rewrite K4, K1, K2. auto.
  - intros s i Hi. destruct (custom_fixed_value o p W act shape s Hk Hn HO HA) as (out & S' & h' & E & _ & EF' & _ & V).
    rewrite EF in EF'. injection EF' as <- <-. rewrite (same_predict S S0 h0 _ SG), V.
    unfold conditional_log_probs, conditional_log_wave_function, conditionals. rewrite E. reflexivity.
Qed.
