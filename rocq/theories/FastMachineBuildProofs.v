(** The machines of MachinesModel.v and their layer graphs. *)
From Coq Require Import List ZArith Arith Bool Reals Lia.
From Verif Require Import Base Cplx OrderingModel OrderingSpec OrderingProofs TensorModel TopologyModel TopologySpec TopologyProofs
  AutoregressiveModel MachinesModel GraphModel GraphSpec GraphProofs FastMachineModel FastMachineSpec FastMachineProofs.
Import ListNotations.

Lemma real_lawful : lawful real_type.
Proof.
  split; [reflexivity|]. split; [reflexivity|]. intros f v. split.
  - destruct v; intros H; [destruct H|eexists; split; [reflexivity|exact H]|destruct H].
  - intros (a & -> & H). exact H.
Qed.
Lemma complex_lawful : lawful complex_type.
Proof.
  split; [reflexivity|]. split; [reflexivity|]. intros f v. split.
  - destruct v; intros H; [destruct H|destruct H|eexists; split; [reflexivity|exact H]].
  - intros (a & -> & H). exact H.
Qed.
(** The integers of the network input. *)
Definition int_numbers : numbers Z := {| zero := 0%Z; plus := Z.add; times := Z.mul |}.
Definition int_type : number_type Z := {| arithmetic := int_numbers; wrap := VInts; unwrap := unint; tag := TInt |}.
Lemma int_lawful : lawful int_type.
Proof.
  split; [reflexivity|]. split; [reflexivity|]. intros f v. split.
  - destruct v; intros H; [eexists; split; [reflexivity|exact H]|destruct H|destruct H].
  - intros (a & -> & H). exact H.
Qed.

Section Machines.
Context (shape : list nat) (T0 : loc -> Z) (x : tensor value).
Notation computes := (computes x).
Notation later := (later shape T0 x).
Notation builds := (builds shape T0 x).
Notation good := (good shape T0).

(** One step of a construction whose functional version cannot fail. *)
Ltac pure B S' Ts' h' LA C := destruct B as (S' & Ts' & h' & -> & LA & C); cbn [bind fst snd].
(** ... and one that can. *)
Ltac step B f S' Ts' h' LA C t' :=
  let K := fresh in pose proof B as K; destruct f as [t'|]; cbn [bind]; cbv [FastMachineProofs.builds] in K;
  [pure K S' Ts' h' LA C | rewrite K; cbn [bind]; reflexivity].

Lemma kernel_bound_1 k d o : in_shape [k] o -> (dot [1%Z] (map2 Nat.mul o [d]) <= Z.of_nat (k + (k - 1) * (d - 1) - 1))%Z.
Proof.
  intros H. inversion H as [|i ? l' ? Hi Hl]; subst. inversion Hl; subst. cbn [map2 dot]. destruct d as [|d]; nia.
Qed.

Lemma causal_1d_builds {T} (N : number_type T) w S Ts h t f k d act skip tskip c :
  lawful N -> good S Ts -> computes N S Ts h t [1%Z] c -> optionally keeps_length act ->
  match skip, tskip with None, None => True | Some s, Some ts => computes N S Ts s ts [1%Z] c | _, _ => False end ->
  builds N S Ts (causal_conv_1d_graph N w S h f k d act skip) (causal_conv_1d (arithmetic N) w t f k d act tskip) [1%Z] c.
Proof.
  intros LN G HC HA HS. unfold causal_conv_1d_graph, causal_conv_1d.
  set (p := k + (k - 1) * (d - 1) - 1).
  assert (B1 : builds N S Ts (if 0 <? p then padding_layer (Pad1D (p, 0)) S h else Ok (S, h))
                 (Ok (if 0 <? p then zero_pad (arithmetic N) [(p, 0)] t else t)) [1%Z] (c - Z.of_nat p)).
  { destruct (Nat.ltb_spec 0 p).
    - pose proof (padding_builds shape T0 x N S Ts h t [1%Z] c (Pad1D (p, 0)) LN G HC eq_refl) as B.
      cbn [zero_pad_tuples map fst dot] in B. replace (c - Z.of_nat p)%Z with (c - (1 * Z.of_nat p + 0))%Z by ring. exact B.
    - exists S, Ts, h. split; [reflexivity|]. split; [now apply later_refl|]. replace (c - Z.of_nat p)%Z with c by lia. exact HC. }
  set (t1 := if 0 <? p then _ else t) in *. clearbody t1. pure B1 S1 Ts1 h1 LA1 Q1.
  eapply builds_later; [exact LA1|].
  step (conv_builds shape T0 x N S1 Ts1 h1 t1 [1%Z] (c - Z.of_nat p) w f [k] [d] c LN (proj1 LA1) Q1 eq_refl eq_refl
    ltac:(intros o Ho; pose proof (kernel_bound_1 k d o Ho); fold p in H; lia)) (conv_layer (arithmetic N) w f [k] [d] t1) S2 Ts2 h2 LA2 Q2 t2.
  eapply builds_later; [exact LA2|].
  assert (B3 : builds N S2 Ts2 (match skip with None => Ok (S2, h2) | Some s => add_klayer N S2 h2 s end)
                 (match tskip with None => Ok t2 | Some s => add_layer (arithmetic N) t2 s end) [1%Z] c).
  { destruct skip as [s|], tskip as [ts|]; try contradiction.
    - apply add_builds; [exact LN|apply LA2|exact Q2|]. apply LA2, LA1, HS.
    - exists S2, Ts2, h2. split; [reflexivity|]. split; [apply later_refl, LA2|exact Q2]. }
  clear HS. set (r := match skip with Some s => _ | None => _ end) in *. set (ft := match tskip with Some s => _ | None => _ end) in *. clearbody r ft.
  step B3 ft S3 Ts3 h3 LA3 Q3 t3. eapply builds_later; [exact LA3|].
  destruct act as [a|]; cbn [optionally] in HA.
  - apply activation_builds; [exact LN|apply LA3|exact Q3|exact HA].
  - exists S3, Ts3, h3. split; [reflexivity|]. split; [apply later_refl, LA3|exact Q3].
Qed.

Lemma conv_stack_builds {T} (N : number_type T) p W act skips n : lawful N -> optionally keeps_length act ->
  forall i d S Ts h t c, good S Ts -> computes N S Ts h t [1%Z] c ->
  builds N S Ts (conv_stack_graph N p W act skips n i d S h) (conv_stack (arithmetic N) p W act skips n i d t) [1%Z] c.
Proof.
  intros LN HA. induction n as [|n IH]; intros i d S Ts h t c G HC; cbn [conv_stack_graph conv_stack].
  - exists S, Ts, h. split; [reflexivity|]. split; [now apply later_refl|exact HC].
  - assert (B : builds N S Ts (causal_conv_1d_graph N (W i) S h (num_of_channels p) (ksize p) d act (if (skips && (0 <? i))%bool then Some h else None))
               (causal_conv_1d (arithmetic N) (W i) t (num_of_channels p) (ksize p) d act (if (skips && (0 <? i))%bool then Some t else None)) [1%Z] c).
    { apply causal_1d_builds; try assumption. destruct (skips && (0 <? i))%bool; [exact HC|exact I]. }
    step B (causal_conv_1d (arithmetic N) (W i) t (num_of_channels p) (ksize p) d act (if (skips && (0 <? i))%bool then Some t else None)) S1 Ts1 h1 LA1 Q1 t1.
    eapply builds_later; [exact LA1|]. apply IH; [apply LA1|exact Q1].
Qed.

(** VectorToComplexNumber; the functional version forgets the number of features. *)
Lemma to_complex_builds S Ts h t coef c : good S Ts -> computes real_type S Ts h t coef c ->
  match vector_to_complex_layer t with
  | Ok out => builds complex_type S Ts (to_complex_layer S h) (Ok {| kt := out; features := features t / 2 |}) coef c
  | Err e => to_complex_layer S h = Err e
  end.
Proof.
  intros G HC. destruct (info_ok _ _ _ _ _ _ _ _ HC) as (L & EL & E1 & E2 & E3). unfold vector_to_complex_layer, to_complex_layer. rewrite EL. cbn [bind].
  rewrite E1. destruct (Nat.eqb_spec (features t mod 2) 0) as [EM|]; [|reflexivity].
  apply (one_to_one_builds shape T0 x real_type complex_type S Ts h t coef c (fun v => VComplex (vector_to_complex (unreal v))) vector_to_complex).
  - exact real_lawful.
  - exact complex_lawful.
  - exact G.
  - exact HC.
  - reflexivity.
  - intros a Ha. unfold vector_to_complex. rewrite map2_length, firstn_length, skipn_length, Ha.
    pose proof (Nat.div_mod (features t) 2 ltac:(lia)). lia.
Qed.

(** A machine: on the network input it computes what the function computes. *)
Definition machine_builds (G : graph -> nat -> res (graph * nat)) (F : tensor Z -> res (tensor (list C))) (f : nat) (coef : list Z) (c : Z) : Prop :=
  forall S Ts h (x0 : tensor Z), good S Ts -> computes int_type S Ts h {| kt := on_values (fun z => [z]) x0; features := 1 |} coef 0 ->
  match F x0 with
  | Ok out => builds complex_type S Ts (G S h) (Ok {| kt := out; features := f |}) coef c
  | Err e => G S h = Err e
  end.

Lemma expand_builds S Ts h (x0 : tensor Z) coef c : good S Ts -> computes int_type S Ts h {| kt := on_values (fun z => [z]) x0; features := 1 |} coef c ->
  builds int_type S Ts (expand_input_dim S h) (Ok {| kt := on_values (fun z => [z]) x0; features := 1 |}) coef c.
Proof.
  intros G HC. destruct (info_ok _ _ _ _ _ _ _ _ HC) as (L & EL & E1 & E2 & E3). unfold expand_input_dim. rewrite EL. cbn [bind].
  pose proof (one_to_one_builds shape T0 x int_type int_type S Ts h _ coef c (fun v => v) (fun v => v) 1 int_lawful int_lawful G HC ltac:(reflexivity) ltac:(auto)) as B.
  destruct (computes_shape _ _ _ _ _ _ _ _ HC) as [HP HR].
  apply builds_layer; [exact G|]. eapply (add_one shape T0 x int_type int_type); try eassumption; try reflexivity; try exact int_lawful;
    cbn [body out_shape inbound get_spatial_dependency apply_single run run1 lfeatures ldtype features kt] in *.
  - intros u Eu Hu. rewrite E3, E2, stored_size_expand. split; [exact Eu|]. split.
    + intros l Hl. rewrite <- Eu in Hl. destruct (Hu l Hl) as (a & -> & Ha). exact Ha.
    + intros l Hl. exists [dep0 l], [tval u l]. rewrite Eu in Hl. split; [now apply one_to_one_1|]. split; [|reflexivity].
      apply values_at_1. now rewrite Eu.
  - intros l ds d Hl Ed Hd Hi Hs. rewrite E3, stored_size_expand, one_to_one_1 in Ed by exact Hl. injection Ed as <-. destruct Hd as [<-|[]]. cbn. lia.
  - intros u Hu. exact Hu.
Qed.
Lemma cast_builds {T} (N : number_type T) of_Z S Ts h (x0 : tensor Z) coef c : lawful N -> good S Ts ->
  computes int_type S Ts h {| kt := on_values (fun z => [z]) x0; features := 1 |} coef c ->
  builds N S Ts (cast N of_Z S h) (Ok (expand_and_cast of_Z x0)) coef c.
Proof.
  intros LN G HC. destruct (info_ok _ _ _ _ _ _ _ _ HC) as (L & EL & E1 & E2 & E3). unfold cast. rewrite EL. cbn [bind]. rewrite E1.
  exact (one_to_one_builds shape T0 x int_type N S Ts h _ coef c (fun v => wrap N (map of_Z (unint v))) (map of_Z) 1 int_lawful LN G HC
    ltac:(reflexivity) ltac:(intros a Ha; now rewrite map_length)).
Qed.

Lemma conv_layer_features {T} (N : numbers T) w f ks d t t' : conv_layer N w f ks d t = Ok t' -> features t' = f.
Proof. unfold conv_layer. destruct (existsb _ _); [discriminate|]. intros E. injection E as <-. reflexivity. Qed.
Lemma causal_features {T} (N : numbers T) w t f t' : causal_conv_1d N w t f 1 1 None None = Ok t' -> features t' = f.
Proof.
  unfold causal_conv_1d. cbn [Nat.sub Nat.mul Nat.add Nat.ltb Nat.leb]. destruct (conv_layer N w f [1] [1] t) as [t1|] eqn:E; cbn [bind]; [|discriminate].
  intros H. injection H as <-. eapply conv_layer_features. exact E.
Qed.

Lemma conv_net_1d_builds p W act S Ts h t : optionally keeps_length act -> good S Ts -> computes real_type S Ts h t [1%Z] 0 ->
  match conv_net_1d p W act t with
  | Ok out => builds complex_type S Ts (conv_net_1d_graph p W act S h) (Ok {| kt := out; features := 2 |}) [1%Z] (-1)
  | Err e => conv_net_1d_graph p W act S h = Err e
  end.
Proof.
  intros HA G HC. unfold conv_net_1d, conv_net_1d_graph. pose proof real_lawful as LN.
  pose proof (conv_stack_builds real_type p W act (add_skip_connections p) (depth p - 2) LN HA 0 1 S Ts h t 0 G HC) as B.
  change (arithmetic real_type) with real_numbers in B.
  destruct (conv_stack real_numbers p W act (add_skip_connections p) (depth p - 2) 0 1 t) as [t1|e]; cbn [bind]; cbv [FastMachineProofs.builds] in B.
  2:{ rewrite B. reflexivity. }
  pure B S1 Ts1 h1 LA1 Q1.
  pose proof (shift_builds shape T0 x real_type S1 Ts1 h1 t1 [1%Z] 0 0 LN (proj1 LA1) Q1 ltac:(cbn; lia)) as B2. pure B2 S2 Ts2 h2 LA2 Q2.
  change (arithmetic real_type) with real_numbers in Q2. change (0 - nth 0 [1%Z] 0%Z)%Z with (-1)%Z in Q2.
  pose proof (causal_1d_builds real_type (W (depth p - 2)) S2 Ts2 h2 _ 4 1 1 None None None (-1) LN (proj1 LA2) Q2 I I) as B3.
  change (arithmetic real_type) with real_numbers in B3.
  destruct (causal_conv_1d real_numbers (W (depth p - 2)) (shift_layer real_numbers 0 t1) 4 1 1 None None) as [t3|e] eqn:E3; cbn [bind]; cbv [FastMachineProofs.builds] in B3.
  2:{ rewrite B3. reflexivity. }
  pure B3 S3 Ts3 h3 LA3 Q3.
  pose proof (to_complex_builds S3 Ts3 h3 t3 [1%Z] (-1) (proj1 LA3) Q3) as B4. rewrite (causal_features _ _ _ _ _ E3) in B4.
  destruct (vector_to_complex_layer t3) as [out|e]; [|exact B4]. change (4 / 2) with 2 in B4.
  eapply builds_later; [|exact B4]. eapply later_trans; [exact LA1|]. eapply later_trans; [exact LA2|exact LA3].
Qed.

Lemma simple_conv_net_1d_builds p W act : optionally keeps_length act ->
  machine_builds (simple_conv_net_1d_graph p W act) (simple_conv_net_1d p W act) 2 [1%Z] (-1).
Proof.
  intros HA S Ts h x0 G HC. unfold simple_conv_net_1d, simple_conv_net_1d_graph.
  pose proof (expand_builds S Ts h x0 [1%Z] 0 G HC) as B1. pure B1 S1 Ts1 h1 LA1 Q1.
  pose proof (cast_builds real_type IZR S1 Ts1 h1 x0 [1%Z] 0 real_lawful (proj1 LA1) Q1) as B2. pure B2 S2 Ts2 h2 LA2 Q2.
  pose proof (conv_net_1d_builds p W act S2 Ts2 h2 _ HA (proj1 LA2) Q2) as B3.
  destruct (conv_net_1d p W act (expand_and_cast IZR x0)) as [out|e]; [|exact B3].
  eapply builds_later; [|exact B3]. eapply later_trans; [exact LA1|exact LA2].
Qed.

Lemma complex_conv_net_1d_builds p W act : optionally keeps_length act ->
  machine_builds (complex_conv_net_1d_graph p W act) (complex_conv_net_1d p W act) 2 [1%Z] (-1).
Proof.
  intros HA S Ts h x0 G HC. unfold complex_conv_net_1d, complex_conv_net_1d_graph. pose proof complex_lawful as LN.
  pose proof (expand_builds S Ts h x0 [1%Z] 0 G HC) as B1. pure B1 S1 Ts1 h1 LA1 Q1.
  pose proof (cast_builds complex_type (fun z => RtoC (IZR z)) S1 Ts1 h1 x0 [1%Z] 0 LN (proj1 LA1) Q1) as B2. pure B2 S2 Ts2 h2 LA2 Q2.
  pose proof (conv_stack_builds complex_type p W act false (depth p - 1) LN HA 0 1 S2 Ts2 h2 _ 0 (proj1 LA2) Q2) as B.
  change (arithmetic complex_type) with complex_numbers in B.
  destruct (conv_stack complex_numbers p W act false (depth p - 1) 0 1 (expand_and_cast (fun z => RtoC (IZR z)) x0)) as [t1|e]; cbn [bind]; cbv [FastMachineProofs.builds] in B.
  2:{ rewrite B. reflexivity. }
  pure B S3 Ts3 h3 LA3 Q3.
  pose proof (shift_builds shape T0 x complex_type S3 Ts3 h3 t1 [1%Z] 0 0 LN (proj1 LA3) Q3 ltac:(cbn; lia)) as B4. pure B4 S4 Ts4 h4 LA4 Q4.
  change (arithmetic complex_type) with complex_numbers in Q4. change (0 - nth 0 [1%Z] 0%Z)%Z with (-1)%Z in Q4.
  pose proof (causal_1d_builds complex_type (W (depth p - 1)) S4 Ts4 h4 _ 2 1 1 None None None (-1) LN (proj1 LA4) Q4 I I) as B5.
  change (arithmetic complex_type) with complex_numbers in B5.
  destruct (causal_conv_1d complex_numbers (W (depth p - 1)) (shift_layer complex_numbers 0 t1) 2 1 1 None None) as [t3|e] eqn:E3; cbn [bind]; cbv [FastMachineProofs.builds] in B5.
  2:{ exact B5. }
  assert (t3 = {| kt := kt t3; features := 2 |}) as Et by (destruct t3; pose proof (causal_features _ _ _ _ _ E3) as EF; cbn in EF |- *; now rewrite EF).
  rewrite <- Et. eapply builds_later; [|exact B5].
  eapply later_trans; [exact LA1|]. eapply later_trans; [exact LA2|]. eapply later_trans; [exact LA3|exact LA4].
Qed.

(** * Two dimensions *)
Lemma pad_builds S Ts h (t : ktensor R) coef c (p : nat) sizes : good S Ts -> computes real_type S Ts h t coef c ->
  length sizes = length coef -> (p = 0 -> dot coef (map fst sizes) = 0%Z) ->
  builds real_type S Ts (if 0 <? p then padding_layer (PadND sizes) S h else Ok (S, h))
    (Ok (if 0 <? p then zero_pad real_numbers sizes t else t)) coef (c - dot coef (map fst sizes)).
Proof.
  intros G HC HL H0. destruct (Nat.ltb_spec 0 p).
  - exact (padding_builds shape T0 x real_type S Ts h t coef c (PadND sizes) real_lawful G HC HL).
  - exists S, Ts, h. split; [reflexivity|]. split; [now apply later_refl|]. rewrite H0 by lia. replace (c - 0)%Z with c by ring. exact HC.
Qed.

Lemma kernel_bound_2 k1 k2 a b o : (0 <= a)%Z -> (0 <= b)%Z -> in_shape [k1; k2] o ->
  (dot [a; b] (map2 Nat.mul o [1; 1]%nat) <= a * Z.of_nat (k1 - 1) + b * Z.of_nat (k2 - 1))%Z.
Proof.
  intros Ha Hb H. inversion H as [|i ? l' ? Hi Hl]; subst. inversion Hl as [|j ? l'' ? Hj Hl']; subst. inversion Hl'; subst. cbn [map2 dot].
  assert (Z.of_nat (i * 1) <= Z.of_nat (k1 - 1))%Z by lia. assert (Z.of_nat (j * 1) <= Z.of_nat (k2 - 1))%Z by lia. nia.
Qed.

(** Pairs of tensors: the vertical and the horizontal stack. [w] is the width. *)
Definition vertical_time (w : nat) : list Z := [Z.of_nat w; 0%Z].
Definition horizontal_time (w : nat) : list Z := [Z.of_nat w; 1%Z].
Definition builds2 (w : nat) S Ts (r : res (graph * (nat * nat))) (f : res (ktensor R * ktensor R)) (c : Z) : Prop :=
  match f with
  | Ok vh => exists S' Ts' v h, r = Ok (S', (v, h)) /\ later S Ts S' Ts' /\
      computes real_type S' Ts' v (fst vh) (vertical_time w) (Z.of_nat w - 1) /\ computes real_type S' Ts' h (snd vh) (horizontal_time w) c
  | Err e => r = Err e
  end.
Lemma builds2_later w S Ts S' Ts' r f c : later S Ts S' Ts' -> builds2 w S' Ts' r f c -> builds2 w S Ts r f c.
Proof.
  intros HL. destruct f as [t|e]; cbn; [|auto]. intros (S2 & T2 & v & h & -> & L2 & HC). exists S2, T2, v, h. split; [reflexivity|].
  split; [eapply later_trans; eauto|exact HC].
Qed.

(** A step of a pair construction. *)
Ltac step2 B f S' Ts' h' LA C t' :=
  let K := fresh in pose proof B as K; change (arithmetic real_type) with real_numbers in K; destruct f as [t'|]; cbn [bind]; cbv [FastMachineProofs.builds] in K;
  [pure K S' Ts' h' LA C | rewrite K; cbn [bind]; reflexivity].

Lemma causal_2d_builds w p W act mask S Ts v h tv th : keeps_length act -> good S Ts ->
  computes real_type S Ts v tv (vertical_time w) (Z.of_nat w - 1) -> computes real_type S Ts h th (horizontal_time w) 0 ->
  builds2 w S Ts (causal_conv_2d_graph p W act mask S v h) (causal_conv_2d p W act mask tv th) (if mask then -1 else 0).
Proof.
  intros HA G HV HH. unfold causal_conv_2d_graph, causal_conv_2d. pose proof real_lawful as LN. cbv zeta.
  set (k := ksize2 p). set (f := channels2 p). set (P := k - 1).
  set (c0 := (if mask then -1 else 0)%Z).
  assert (HWz : (0 <= Z.of_nat w)%Z) by lia.
  pose proof (pad_builds S Ts v tv (vertical_time w) (Z.of_nat w - 1) P [(P, 0); (P / 2, P / 2)] G HV eq_refl
    ltac:(intros ->; cbn [map fst dot vertical_time]; rewrite Nat.div_0_l by lia; lia)) as B1.
  set (tv1 := if 0 <? P then _ else tv) in *. clearbody tv1. pure B1 S1 Ts1 v1 LA1 Q1.
  assert (HH1 := proj2 LA1 _ _ _ _ _ _ HH).
  pose proof (pad_builds S1 Ts1 h th (horizontal_time w) 0 P [(0, 0); (P, 0)] (proj1 LA1) HH1 eq_refl
    ltac:(intros ->; cbn [map fst dot horizontal_time]; lia)) as B2.
  set (th1 := if 0 <? P then _ else th) in *. clearbody th1. pure B2 S2 Ts2 h1 LA2 Q2. assert (Q1b := proj2 LA2 _ _ _ _ _ _ Q1).
  cbn [map fst dot horizontal_time] in Q2. cbn [map fst dot vertical_time] in Q1b.
  eapply builds2_later; [exact LA1|]. eapply builds2_later; [exact LA2|].
  (* vertical convolution *)
  step2 (conv_builds shape T0 x real_type S2 Ts2 v1 tv1 (vertical_time w) _ (W 0) f [k; k] [1; 1] (Z.of_nat w - 1) LN (proj1 LA2) Q1b eq_refl eq_refl
    ltac:(intros o Ho; pose proof (kernel_bound_2 k k (Z.of_nat w) 0 o HWz ltac:(lia) Ho); fold P in H; unfold vertical_time; lia))
    (conv_layer real_numbers (W 0) f [k; k] [1; 1] tv1) S3 Ts3 v3 LA3 Q3 tv3.
  assert (Q2b := proj2 LA3 _ _ _ _ _ _ Q2). eapply builds2_later; [exact LA3|].
  (* horizontal convolution *)
  step2 (conv_builds shape T0 x real_type S3 Ts3 h1 th1 (horizontal_time w) _ (W 1) f [1; k] [1; 1] 0 LN (proj1 LA3) Q2b eq_refl eq_refl
    ltac:(intros o Ho; pose proof (kernel_bound_2 1 k (Z.of_nat w) 1 o HWz ltac:(lia) Ho); fold P in H; unfold horizontal_time; lia))
    (conv_layer real_numbers (W 1) f [1; k] [1; 1] th1) S4 Ts4 h4 LA4 Q4 th4.
  eapply builds2_later; [exact LA4|].
  pose proof (activation_builds shape T0 x real_type S4 Ts4 h4 th4 (horizontal_time w) 0 act LN (proj1 LA4) Q4 HA) as B5. pure B5 S5 Ts5 h5 LA5 Q5.
  eapply builds2_later; [exact LA5|].
  assert (B6 : builds real_type S5 Ts5 (if mask then shift_klayer 1 S5 h5 else Ok (S5, h5))
                 (Ok (if mask then shift_layer real_numbers 1 (activate act th4) else activate act th4)) (horizontal_time w) c0).
  { unfold c0. destruct mask.
    - exact (shift_builds shape T0 x real_type S5 Ts5 h5 _ (horizontal_time w) 0 1 LN (proj1 LA5) Q5 ltac:(cbn; lia)).
    - exists S5, Ts5, h5. split; [reflexivity|]. split; [apply later_refl, LA5|exact Q5]. }
  set (x6 := if mask then shift_layer _ _ _ else _) in *. clearbody x6. pure B6 S6 Ts6 h6 LA6 Q6. eapply builds2_later; [exact LA6|].
  step2 (conv_builds shape T0 x real_type S6 Ts6 h6 x6 (horizontal_time w) c0 (W 2) (f / 2) [1; 1] [1; 1] c0 LN (proj1 LA6) Q6 eq_refl eq_refl
    ltac:(intros o Ho; pose proof (kernel_bound_2 1 1 (Z.of_nat w) 1 o HWz ltac:(lia) Ho); unfold horizontal_time; lia))
    (conv_layer real_numbers (W 2) (f / 2) [1; 1] [1; 1] x6) S7 Ts7 h7 LA7 Q7 x7.
  eapply builds2_later; [exact LA7|].
  (* vertical to horizontal *)
  assert (Q3b : computes real_type S7 Ts7 v3 tv3 (vertical_time w) (Z.of_nat w - 1)) by (apply LA7, LA6, LA5, LA4; exact Q3).
  pose proof (activation_builds shape T0 x real_type S7 Ts7 v3 tv3 (vertical_time w) _ act LN (proj1 LA7) Q3b HA) as B8. pure B8 S8 Ts8 y8 LA8 Q8.
  eapply builds2_later; [exact LA8|].
  pose proof (shift_builds shape T0 x real_type S8 Ts8 y8 _ (vertical_time w) _ 0 LN (proj1 LA8) Q8 ltac:(cbn; lia)) as B9. pure B9 S9 Ts9 y9 LA9 Q9.
  change (arithmetic real_type) with real_numbers in Q9. cbn [nth vertical_time] in Q9.
  eapply builds2_later; [exact LA9|].
  step2 (conv_builds shape T0 x real_type S9 Ts9 y9 _ (vertical_time w) _ (W 3) (f / 2) [1; 1] [1; 1] (-1) LN (proj1 LA9) Q9 eq_refl eq_refl
    ltac:(intros o Ho; pose proof (kernel_bound_2 1 1 (Z.of_nat w) 0 o HWz ltac:(lia) Ho); unfold vertical_time; lia))
    (conv_layer real_numbers (W 3) (f / 2) [1; 1] [1; 1] (shift_layer real_numbers 0 (activate act tv3))) S10 Ts10 y10 LA10 Q10 y10t.
  eapply builds2_later; [exact LA10|].
  assert (Q10w : computes real_type S10 Ts10 y10 y10t (horizontal_time w) c0).
  { eapply computes_weaken; [exact Q10|reflexivity|]. intros l Hl. unfold vertical_time, horizontal_time, c0.
    destruct l as [|i [|j l]]; cbn [dot]; destruct mask; lia. }
  assert (Q7b : computes real_type S10 Ts10 h7 x7 (horizontal_time w) c0) by (apply LA10, LA9, LA8; exact Q7).
  pose proof (activation_builds shape T0 x real_type S10 Ts10 h7 x7 (horizontal_time w) _ act LN (proj1 LA10) Q7b HA) as B11. pure B11 S11 Ts11 h11 LA11 Q11.
  eapply builds2_later; [exact LA11|].
  pose proof (activation_builds shape T0 x real_type S11 Ts11 y10 y10t (horizontal_time w) _ act LN (proj1 LA11) (proj2 LA11 _ _ _ _ _ _ Q10w) HA) as B12. pure B12 S12 Ts12 y12 LA12 Q12.
  eapply builds2_later; [exact LA12|].
  step2 (concat_builds shape T0 x S12 Ts12 h11 y12 _ _ (horizontal_time w) c0 LN (proj1 LA12) (proj2 LA12 _ _ _ _ _ _ Q11) Q12)
    (concatenate_features (activate act x7) (activate act y10t)) S13 Ts13 h13 LA13 Q13 x13.
  eapply builds2_later; [exact LA13|].
  pose proof (pad_builds S13 Ts13 h13 x13 (horizontal_time w) c0 P [(P, 0); (P, 0)] (proj1 LA13) Q13 eq_refl
    ltac:(intros ->; cbn [map fst dot horizontal_time]; lia)) as B14.
  set (x14 := if 0 <? P then _ else x13) in *. clearbody x14. pure B14 S14 Ts14 h14 LA14 Q14. cbn [map fst dot horizontal_time] in Q14.
  eapply builds2_later; [exact LA14|].
  step2 (conv_builds shape T0 x real_type S14 Ts14 h14 x14 (horizontal_time w) _ (W 4) f [k; k] [1; 1] c0 LN (proj1 LA14) Q14 eq_refl eq_refl
    ltac:(intros o Ho; pose proof (kernel_bound_2 k k (Z.of_nat w) 1 o HWz ltac:(lia) Ho); fold P in H; unfold horizontal_time; lia))
    (conv_layer real_numbers (W 4) f [k; k] [1; 1] x14) S15 Ts15 h15 LA15 Q15 x15.
  exists S15, Ts15, v3, h15. split; [reflexivity|]. split; [exact LA15|]. split; [|exact Q15].
  apply LA15, LA14, LA13, LA12, LA11, LA10, LA9, LA8. exact Q3b.
Qed.

Lemma activations_2d_builds w act S Ts v h tv th c : keeps_length act -> good S Ts ->
  computes real_type S Ts v tv (vertical_time w) (Z.of_nat w - 1) -> computes real_type S Ts h th (horizontal_time w) c ->
  builds2 w S Ts (activations_2d act S v h) (Ok (activate act tv, activate act th)) c.
Proof.
  intros HA G HV HH. unfold activations_2d. pose proof real_lawful as LN.
  pose proof (activation_builds shape T0 x real_type S Ts v tv _ _ act LN G HV HA) as B1. pure B1 S1 Ts1 v1 LA1 Q1.
  pose proof (activation_builds shape T0 x real_type S1 Ts1 h th _ _ act LN (proj1 LA1) (proj2 LA1 _ _ _ _ _ _ HH) HA) as B2. pure B2 S2 Ts2 h2 LA2 Q2.
  exists S2, Ts2, v1, h2. split; [reflexivity|]. split; [eapply later_trans; eauto|]. split; [apply LA2; exact Q1|exact Q2].
Qed.

Ltac pair B f S' Ts' v' h' LA CV CH vh :=
  let K := fresh in pose proof B as K; destruct f as [vh|]; cbn [bind]; cbv [builds2] in K;
  [destruct K as (S' & Ts' & v' & h' & -> & LA & CV & CH); cbn [bind fst snd]; cbn [fst snd] in CV, CH | rewrite K; cbn [bind]; reflexivity].

Lemma residual_block_builds w p W act S Ts v h tv th : keeps_length act -> good S Ts ->
  computes real_type S Ts v tv (vertical_time w) (Z.of_nat w - 1) -> computes real_type S Ts h th (horizontal_time w) 0 ->
  builds2 w S Ts (residual_block_graph p W act S v h) (residual_block p W act tv th) 0.
Proof.
  intros HA G HV HH. unfold residual_block_graph, residual_block. pose proof real_lawful as LN.
  pair (causal_2d_builds w p (W 0) act false S Ts v h tv th HA G HV HH) (causal_conv_2d p (W 0) act false tv th) S1 Ts1 v1 h1 LA1 V1 H1 r1.
  pose proof (activations_2d_builds w act S1 Ts1 v1 h1 (fst r1) (snd r1) 0 HA (proj1 LA1) V1 H1) as B2.
  destruct B2 as (S2 & Ts2 & v2 & h2 & -> & LA2 & V2 & H2). cbn [bind fst snd]. cbn [fst snd] in V2, H2.
  eapply builds2_later; [exact LA1|]. eapply builds2_later; [exact LA2|].
  pair (causal_2d_builds w p (W 1) act false S2 Ts2 v2 h2 _ _ HA (proj1 LA2) V2 H2)
    (causal_conv_2d p (W 1) act false (activate act (fst r1)) (activate act (snd r1))) S3 Ts3 v3 h3 LA3 V3 H3 r3.
  eapply builds2_later; [exact LA3|].
  assert (HV3 : computes real_type S3 Ts3 v tv (vertical_time w) (Z.of_nat w - 1)) by (apply LA3, LA2, LA1; exact HV).
  assert (HH3 : computes real_type S3 Ts3 h th (horizontal_time w) 0) by (apply LA3, LA2, LA1; exact HH).
  step2 (add_builds shape T0 x real_type S3 Ts3 v v3 tv (fst r3) _ _ LN (proj1 LA3) HV3 V3) (add_layer real_numbers tv (fst r3)) S4 Ts4 v4 LA4 Q4 tv4.
  eapply builds2_later; [exact LA4|].
  step2 (add_builds shape T0 x real_type S4 Ts4 h h3 th (snd r3) _ _ LN (proj1 LA4) (proj2 LA4 _ _ _ _ _ _ HH3) (proj2 LA4 _ _ _ _ _ _ H3))
    (add_layer real_numbers th (snd r3)) S5 Ts5 h5 LA5 Q5 th5.
  eapply builds2_later; [exact LA5|].
  exact (activations_2d_builds w act S5 Ts5 v4 h5 tv4 th5 0 HA (proj1 LA5) (proj2 LA5 _ _ _ _ _ _ Q4) Q5).
Qed.

Lemma residual_blocks_builds w p W act n : keeps_length act -> forall i S Ts v h tv th, good S Ts ->
  computes real_type S Ts v tv (vertical_time w) (Z.of_nat w - 1) -> computes real_type S Ts h th (horizontal_time w) 0 ->
  builds2 w S Ts (residual_blocks_graph p W act n i S v h) (residual_blocks p W act n i tv th) 0.
Proof.
  intros HA. induction n as [|n IH]; intros i S Ts v h tv th G HV HH; cbn [residual_blocks_graph residual_blocks].
  - exists S, Ts, v, h. split; [reflexivity|]. split; [now apply later_refl|]. split; assumption.
  - pair (residual_block_builds w p (fun j => W (2 * i + j + 1)) act S Ts v h tv th HA G HV HH)
      (residual_block p (fun j => W (2 * i + j + 1)) act tv th) S1 Ts1 v1 h1 LA1 V1 H1 r1.
    eapply builds2_later; [exact LA1|]. apply IH; [apply LA1|exact V1|exact H1].
Qed.

Lemma conv_net_2d_builds p W w_last act (S : graph) Ts h (x0 : tensor Z) (hh w : nat) : keeps_length act -> tshape x0 = [hh; w] -> good S Ts ->
  computes int_type S Ts h {| kt := on_values (fun z => [z]) x0; features := 1 |} (horizontal_time w) 0 ->
  match conv_net_2d p W w_last act x0 with
  | Ok out => builds complex_type S Ts (conv_net_2d_graph p W w_last act S h) (Ok {| kt := out; features := 2 |}) (horizontal_time w) (-1)
  | Err e => conv_net_2d_graph p W w_last act S h = Err e
  end.
Proof.
  intros HA ES G HC. unfold conv_net_2d, conv_net_2d_graph. pose proof real_lawful as LN.
  pose proof (expand_builds S Ts h x0 _ 0 G HC) as B1. pure B1 S1 Ts1 h1 LA1 Q1.
  pose proof (cast_builds real_type IZR S1 Ts1 h1 x0 _ 0 real_lawful (proj1 LA1) Q1) as B2. pure B2 S2 Ts2 h2 LA2 Q2.
  set (xr := expand_and_cast IZR x0) in *.
  assert (Q2v : computes real_type S2 Ts2 h2 xr (vertical_time w) (Z.of_nat w - 1)).
  { eapply computes_weaken; [exact Q2|reflexivity|]. intros l Hl. cbn [xr expand_and_cast kt tshape] in Hl. rewrite ES in Hl.
    inversion Hl as [|i ? l' ? Hi Hl']; subst. inversion Hl' as [|j ? l'' ? Hj Hl'']; subst. inversion Hl''; subst. unfold vertical_time, horizontal_time. cbn [dot]. lia. }
  pose proof (causal_2d_builds w p (W 0) act false S2 Ts2 h2 h2 xr xr HA (proj1 LA2) Q2v Q2) as B3. cbv zeta.
  destruct (causal_conv_2d p (W 0) act false xr xr) as [r3|e]; cbn [bind]; cbv [builds2] in B3; [|now rewrite B3].
  destruct B3 as (S3 & Ts3 & v3 & h3 & -> & LA3 & V3 & H3). cbn [bind fst snd].
  pose proof (activations_2d_builds w act S3 Ts3 v3 h3 (fst r3) (snd r3) 0 HA (proj1 LA3) V3 H3) as B4.
  destruct B4 as (S4 & Ts4 & v4 & h4 & -> & LA4 & V4 & H4). cbn [bind fst snd]. cbn [fst snd] in V4, H4.
  pose proof (residual_blocks_builds w p W act (depth2 p - 2) HA 0 S4 Ts4 v4 h4 _ _ (proj1 LA4) V4 H4) as B5.
  destruct (residual_blocks p W act (depth2 p - 2) 0 (activate act (fst r3)) (activate act (snd r3))) as [r5|e]; cbn [bind]; cbv [builds2] in B5; [|now rewrite B5].
  destruct B5 as (S5 & Ts5 & v5 & h5 & -> & LA5 & V5 & H5). cbn [bind fst snd].
  pose proof (causal_2d_builds w p (W (2 * (depth2 p - 2) + 1)) act true S5 Ts5 v5 h5 (fst r5) (snd r5) HA (proj1 LA5) V5 H5) as B6.
  destruct (causal_conv_2d p (W (2 * (depth2 p - 2) + 1)) act true (fst r5) (snd r5)) as [r6|e]; cbn [bind]; cbv [builds2] in B6; [|now rewrite B6].
  destruct B6 as (S6 & Ts6 & v6 & h6 & -> & LA6 & V6 & H6). cbn [bind fst snd].
  pose proof (activation_builds shape T0 x real_type S6 Ts6 h6 (snd r6) (horizontal_time w) (-1) act LN (proj1 LA6) H6 HA) as B7. pure B7 S7 Ts7 h7 LA7 Q7.
  pose proof (conv_builds shape T0 x real_type S7 Ts7 h7 _ (horizontal_time w) (-1) w_last 4 [1; 1] [1; 1] (-1) LN (proj1 LA7) Q7 eq_refl eq_refl
    ltac:(intros o Ho; pose proof (kernel_bound_2 1 1 (Z.of_nat w) 1 o ltac:(lia) ltac:(lia) Ho); unfold horizontal_time; lia)) as B8.
  change (arithmetic real_type) with real_numbers in B8.
  destruct (conv_layer real_numbers w_last 4 [1; 1] [1; 1] (activate act (snd r6))) as [t8|e] eqn:E8; cbn [bind]; cbv [FastMachineProofs.builds] in B8; [|now rewrite B8].
  pure B8 S8 Ts8 h8 LA8 Q8.
  pose proof (to_complex_builds S8 Ts8 h8 t8 (horizontal_time w) (-1) (proj1 LA8) Q8) as B9. rewrite (conv_layer_features _ _ _ _ _ _ _ E8) in B9.
  destruct (vector_to_complex_layer t8) as [out|e]; [|exact B9]. change (4 / 2) with 2 in B9.
  eapply builds_later; [|exact B9]. do 7 (eapply later_trans; [eassumption|]). exact LA8.
Qed.
End Machines.
