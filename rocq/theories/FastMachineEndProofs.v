(** From the layer graphs to the fast sampler. *)
From Coq Require Import List ZArith Arith Bool Reals Lia.
From Verif Require Import Base Cplx OrderingModel OrderingSpec OrderingProofs TensorModel TopologyModel TopologySpec TopologyProofs
  AutoregressiveModel AutoregressiveSpec AutoregressiveProofs MachinesModel MachinesSpec MachinesProofs GraphModel GraphSpec GraphProofs
  FastMachineModel FastMachineSpec FastMachineProofs FastMachineBuildProofs.
Import ListNotations.

Lemma input_computes shape coef s : Forall (fun n => 0 < n) shape -> length shape = length coef ->
  computes (network_input shape s) int_type [input_klayer shape] [dot coef] 0
    {| kt := on_values (fun z => [z]) (input_array shape s); features := 1 |} coef 0.
Proof.
  intros HP HL. exists (input_klayer shape), (dot coef), (network_input shape s).
  do 6 (split; [reflexivity|]). split; [exact HP|]. split; [exact HL|]. split; [intros; lia|]. split; [reflexivity|]. reflexivity.
Qed.

(** The construction of a machine follows the function of the machine, on every input of this shape. *)
Definition follows (G : graph -> nat -> res (graph * nat)) (F : tensor Z -> res (tensor (list C))) (shape : list nat) (coef : list Z) : Prop :=
  forall s,
  match F (input_array shape s) with
  | Ok out => builds shape (dot coef) (network_input shape s) complex_type [input_klayer shape] [dot coef] (G [input_klayer shape] 0)
                (Ok {| kt := out; features := 2 |}) coef (-1)
  | Err e => G [input_klayer shape] 0 = Err e
  end.

Lemma follows_graph G F shape coef : Forall (fun n => 0 < n) shape -> length shape = length coef -> follows G F shape coef -> well_shaped F shape ->
  exists S h, graph_of G F shape S h.
Proof.
  intros HP HL HF HW.
  assert (K : forall s, exists out S Ts h L Th, F (input_array shape s) = Ok out /\ conditional_log_probs_graph G false shape = Ok (S, h) /\
     good shape (dot coef) S Ts /\ nth_error S h = Some L /\ nth_error Ts h = Some Th /\ 0 < h /\ out_shape (body L) = shape /\
     (forall l, in_shape shape l -> (Th l < dot coef l)%Z) /\
     forall l, in_shape shape l -> tval (predict (keras_model (S, h)) (network_input shape s)) l = VReals (map (fun z => (Re z * 2)%R) (normalize_complex 2 (tval out l)))).
  { intros s. destruct (HW s) as (out & E & ES & HLn). specialize (HF s). rewrite E in HF. destruct HF as (S1 & T1 & h1 & EG & LA1 & Q1).
    pose proof complex_lawful as LC. pose proof real_lawful as LR.
    set (x := network_input shape s) in *.
    assert (B2 : builds shape (dot coef) x complex_type S1 T1 (normalize_layer S1 h1) (Ok {| kt := on_values (normalize_complex 2) out; features := 2 |}) coef (-1)).
    { unfold normalize_layer. destruct (info_ok x complex_type S1 T1 h1 _ _ _ Q1) as (L & -> & E1 & _). cbn [bind]. rewrite E1. cbn [features].
      apply (one_to_one_builds shape (dot coef) x complex_type complex_type S1 T1 h1 _ coef (-1) _ (normalize_complex 2) 2 LC LC (proj1 LA1) Q1); [reflexivity|].
      intros a Ha. rewrite normalize_complex_length. exact Ha. }
    destruct B2 as (S2 & T2 & h2 & EN & LA2 & Q2).
    assert (B3 : builds shape (dot coef) x real_type S2 T2 (log_probs_layer S2 h2)
       (Ok {| kt := on_values (map (fun z => (Re z * 2)%R)) (on_values (normalize_complex 2) out); features := 2 |}) coef (-1)).
    { unfold log_probs_layer. destruct (info_ok x complex_type S2 T2 h2 _ _ _ Q2) as (L & -> & E1 & _). cbn [bind]. rewrite E1. cbn [features].
      apply (one_to_one_builds shape (dot coef) x complex_type real_type S2 T2 h2 _ coef (-1) _ (map (fun z => (Re z * 2)%R)) 2 LC LR (proj1 LA2) Q2); [reflexivity|].
      intros a Ha. rewrite map_length. exact Ha. }
    destruct B3 as (S & Ts & h & EP & LA3 & (L & Th & u & H1 & H2 & H3 & H4 & H5 & H6 & H7 & H8 & H9 & H10)).
    exists out, S, Ts, h, L, Th. split; [exact E|].
    split; [unfold conditional_log_probs_graph; rewrite EG; cbn [bind fst snd]; rewrite EN; cbn [bind fst snd]; exact EP|].
    pose proof (proj1 LA3) as GD. cbn [kt on_values tshape] in H6, H7, H8, H9. rewrite ES in *.
    split; [exact GD|]. split; [exact H1|]. split; [exact H2|]. split.
    { destruct h; [|lia]. exfalso. rewrite (proj1 (good_first _ _ _ _ GD)) in H1. injection H1 as <-. discriminate. }
    split; [exact H6|]. split; [intros l Hl; specialize (H9 l Hl); lia|].
    intros l Hl. unfold predict, forward. cbn [keras_model klayers output fst snd].
    change (forward_from x (tl (map body S)) [x]) with (evals S x). rewrite (nth_error_nth (evals S x) h x H3). now rewrite (proj2 H10 l). }
  destruct (K []) as (out0 & S & Ts & h & L & Th & E0 & EG & GD & H1 & H2 & Hh & HS & HT & _). exists S, h. split; [exact EG|].
  split; [apply (good_first _ _ _ _ GD)|].
  split; [exact (good_well_formed _ _ _ _ _ _ GD H1 Hh HS)|].
  split; [exact (good_acyclic _ _ _ _ _ _ _ GD H1 H2 Hh HS HT)|].
  intros s i Hi. destruct (K s) as (out & S' & Ts' & h' & L' & Th' & E & EG' & _ & _ & _ & _ & _ & _ & HV).
  rewrite EG in EG'. injection EG' as <- <-. rewrite HV by now apply location_in.
  unfold conditional_log_probs, conditional_log_wave_function, conditionals. rewrite E. reflexivity.
Qed.

(** ** Sampling *)
Lemma site_index_lt shape l h : site_index shape l = Ok h -> h < volume shape.
Proof.
  unfold site_index, volume. destruct l as [|i [|j [|k l]]]; try discriminate; destruct shape as [|n [|m [|q shape]]]; try discriminate; cbn [fold_right].
  - destruct (Nat.ltb_spec i n); [|discriminate]. intros [= <-]. lia.
  - destruct (Nat.ltb_spec i n), (Nat.ltb_spec j m); cbn; try discriminate. intros [= <-]. nia.
Qed.
Lemma sample_loop_ext shape zb lp lp' u order : (forall b i, length b = volume shape -> i < volume shape -> nth 0 (lp b i) 0%R = nth 0 (lp' b i) 0%R) ->
  forall b, length b = volume shape -> sample_loop shape zb lp u order b = sample_loop shape zb lp' u order b.
Proof.
  intros H. induction order as [|l order IH]; intros b Hb; cbn [sample_loop]; [reflexivity|].
  destruct (site_index shape l) as [i|e] eqn:Ei; cbn [bind]; [|reflexivity]. rewrite H by (eauto using site_index_lt). apply IH. now rewrite upd_length.
Qed.

Lemma graph_samples G F shape S h u : graph_of G F shape S h -> length shape = 1 \/ length shape = 2 ->
  autoregressive (volume shape) (map (row_major shape) (raster shape)) (conditionals F shape) ->
  exists x s, fast_sample (keras_model (S, h)) (graph_zeros S) (draw_with (keras_model (S, h)) site_value category_0 false u) = Ok x /\
    sampler_next shape false (conditional_log_probs (conditionals F shape)) (raster shape) u = Ok s /\
    forall l, in_shape shape l -> x l = site_value (nth (row_major shape l) s 0%Z).
Proof.
  intros (EG & E0 & WF & (D & ED & NC) & HV) HR HA. set (M := keras_model (S, h)) in *.
  assert (ES : input_shape M = shape).
  { unfold input_shape. cbn [M keras_model klayers fst]. destruct S as [|L0 S']; [discriminate|]. injection E0 as ->. reflexivity. }
  assert (HP : forall s i, i < volume shape -> site_log_probs M site_value category_0 s i = [nth 0 (conditional_log_probs (conditionals F shape) s i) 0%R]).
  { intros s i Hi. unfold site_log_probs. rewrite ES. specialize (HV s i Hi). unfold category_0 at 1.
    replace (input_of M (encoded M site_value s)) with (network_input shape s); [rewrite HV; reflexivity|].
    unfold input_of, encoded, network_input, on_values, input_array. rewrite ES. cbn [tshape tval]. f_equal. symmetry. exact ES. }
  assert (HO : ordering_of shape (raster shape)) by apply raster_ordering.
  destruct (fast_equals_site_by_site (right_values S) (graph_zeros S) M site_value category_0 false u D (raster shape) WF) as (x & s & EF & EN & HLs & HX).
  - intros z. unfold right_values. rewrite E0. reflexivity.
  - exact ED.
  - exact NC.
  - rewrite ES. exact HR.
  - rewrite ES. exact HO.
  - rewrite ES. intros before i after E s t Hs Ht Hb.
    assert (Hi : i < volume shape).
    { assert (Hin : In i (map (row_major shape) (raster shape))) by (rewrite E, in_app_iff; right; now left).
      apply in_map_iff in Hin. destruct Hin as (l & <- & Hl). apply row_major_lt. now apply in_raster. }
    rewrite !HP by exact Hi. f_equal. unfold conditional_log_probs, conditional_log_wave_function. now rewrite (HA before i after E s t Hs Ht Hb).
  - rewrite ES in *. exists x, s. split; [exact EF|]. split; [|exact HX]. rewrite <- EN. symmetry. unfold sampler_next. apply sample_loop_ext.
    + intros b i _ Hi. now rewrite HP.
    + apply repeat_length.
Qed.

(** ** Boxes *)
Lemma spin_configs_length n s : In s (spin_configs n) -> length s = n.
Proof.
  unfold spin_configs. revert s. induction n as [|n IH]; intros s H; cbn [strings] in H.
  - destruct H as [<-|[]]. reflexivity.
  - apply in_flat_map in H. destruct H as (a & _ & H). apply in_map_iff in H. destruct H as (t & <- & Ht). cbn. now rewrite (IH t Ht).
Qed.

Lemma graph_born G F shape S h : graph_of G F shape S h -> length shape = 1 \/ length shape = 2 -> well_shaped F shape ->
  autoregressive (volume shape) (map (row_major shape) (raster shape)) (conditionals F shape) ->
  fast_samples_born shape S h (predictions (conditionals F shape)).
Proof.
  intros HG HR HW HA. pose proof (raster_ordering shape) as HO.
  assert (H2 : forall s i, length (conditionals F shape s i) = 2).
  { intros s i. unfold conditionals. destruct (HW s) as (out & -> & _ & L). apply L. }
  destruct (sampler_boxes shape (raster shape) (conditionals F shape) HR HO HA H2) as (box & B1 & B2 & B3).
  exists box. split; [exact B1|]. split; [|exact B3]. intros u s Hu Hs. rewrite <- (B2 u s Hu Hs).
  destruct (graph_samples G F shape S h u HG HR HA) as (x & s0 & EF & EN & HX).
  destruct (sampler_total shape (raster shape) (conditionals F shape) u HR HO HA) as (s1 & E1 & I1). rewrite EN in E1. injection E1 as <-.
  split.
  - intros (y & Ey & HY). rewrite EF in Ey. injection Ey as <-. rewrite EN. f_equal. apply (list_ext_nth 0%Z).
    + now rewrite (spin_configs_length _ _ I1), (spin_configs_length _ _ Hs).
    + intros i Hi. rewrite (spin_configs_length _ _ I1) in Hi. pose proof (location_in shape i Hi) as Hl.
      specialize (HX _ Hl). rewrite (HY _ Hl), (row_major_location shape i Hi) in HX. injection HX as HX. now symmetry.
  - intros E. rewrite EN in E. injection E as ->. exists x. auto.
Qed.

(** ** The machines *)
Lemma follows_err G F shape coef s e equal : follows G F shape coef -> F (input_array shape s) = Err e -> conditional_log_probs_graph G equal shape = Err e.
Proof. intros H E. specialize (H s). rewrite E in H. unfold conditional_log_probs_graph. rewrite H. reflexivity. Qed.

Lemma simple_1d_follows p W act n : 0 < n -> optionally keeps_length act -> follows (simple_conv_net_1d_graph p W act) (simple_conv_net_1d p W act) [n] [1%Z].
Proof.
  intros Hn HA s. apply simple_conv_net_1d_builds; [exact HA|apply good_input|]. apply input_computes; [repeat constructor; exact Hn|reflexivity].
Qed.
Lemma complex_1d_follows p W act n : 0 < n -> optionally keeps_length act -> follows (complex_conv_net_1d_graph p W act) (complex_conv_net_1d p W act) [n] [1%Z].
Proof.
  intros Hn HA s. apply complex_conv_net_1d_builds; [exact HA|apply good_input|]. apply input_computes; [repeat constructor; exact Hn|reflexivity].
Qed.
Lemma conv_2d_follows p W w_last act h w : 0 < h -> 0 < w -> keeps_length act ->
  follows (conv_net_2d_graph p W w_last act) (conv_net_2d p W w_last act) [h; w] (horizontal_time w).
Proof.
  intros Hh Hw HA s. apply (conv_net_2d_builds _ _ _ p W w_last act _ _ _ _ h w); [exact HA|reflexivity|apply good_input|].
  apply input_computes; [repeat constructor; assumption|reflexivity].
Qed.

Lemma raster_seq shape : map (row_major shape) (raster shape) = seq 0 (volume shape).
Proof. exact (raster_row_major shape). Qed.
Lemma volume_1 n : volume [n] = n. Proof. cbn. lia. Qed.
Lemma volume_2 h w : volume [h; w] = h * w. Proof. cbn. lia. Qed.

Lemma simple_1d_graph p W act n : 1 <= ksize p -> 0 < n -> optionally keeps_length act ->
  exists S h, graph_of (simple_conv_net_1d_graph p W act) (simple_conv_net_1d p W act) [n] S h /\
    fast_samples_born [n] S h (predictions (conditionals (simple_conv_net_1d p W act) [n])).
Proof.
  intros Hk Hn HA. destruct (simple_conv_net_1d_causal p W act n Hk Hn) as [HW HC].
  destruct (follows_graph _ _ [n] [1%Z] ltac:(repeat constructor; exact Hn) eq_refl (simple_1d_follows p W act n Hn HA) HW) as (S & h & HG).
  exists S, h. split; [exact HG|]. eapply graph_born; [exact HG|now left|exact HW|]. rewrite raster_seq, volume_1. exact HC.
Qed.
Lemma complex_1d_graph p W act n : 1 <= ksize p -> 0 < n -> optionally keeps_length act ->
  exists S h, graph_of (complex_conv_net_1d_graph p W act) (complex_conv_net_1d p W act) [n] S h /\
    fast_samples_born [n] S h (predictions (conditionals (complex_conv_net_1d p W act) [n])).
Proof.
  intros Hk Hn HA. destruct (complex_conv_net_1d_causal p W act n Hk Hn) as [HW HC].
  destruct (follows_graph _ _ [n] [1%Z] ltac:(repeat constructor; exact Hn) eq_refl (complex_1d_follows p W act n Hn HA) HW) as (S & h & HG).
  exists S, h. split; [exact HG|]. eapply graph_born; [exact HG|now left|exact HW|]. rewrite raster_seq, volume_1. exact HC.
Qed.
Lemma conv_2d_graph p W w_last act h w : Nat.odd (ksize2 p) = true -> 0 < h -> 0 < w -> keeps_length act ->
  exists S k, graph_of (conv_net_2d_graph p W w_last act) (conv_net_2d p W w_last act) [h; w] S k /\
    fast_samples_born [h; w] S k (predictions (conditionals (conv_net_2d p W w_last act) [h; w])).
Proof.
  intros Hk Hh Hw HA. destruct (conv_net_2d_causal p W w_last act h w Hk Hh Hw) as [HW HC].
  destruct (follows_graph _ _ [h; w] (horizontal_time w) ltac:(repeat constructor; assumption) eq_refl (conv_2d_follows p W w_last act h w Hh Hw HA) HW) as (S & k & HG).
  exists S, k. split; [exact HG|]. eapply graph_born; [exact HG|now right|exact HW|]. rewrite raster_seq, volume_2. exact HC.
Qed.

Lemma graph_site_by_site G F shape S h u : graph_of G F shape S h -> length shape = 1 \/ length shape = 2 ->
  autoregressive (volume shape) (seq 0 (volume shape)) (conditionals F shape) ->
  exists s, sampler_next shape false (conditional_log_probs (conditionals F shape)) (raster shape) u = Ok s /\ fast_returns shape S h u s.
Proof.
  intros HG HR HA. rewrite <- raster_seq in HA. destruct (graph_samples G F shape S h u HG HR HA) as (x & s & EF & EN & HX).
  exists s. split; [exact EN|]. exists x. auto.
Qed.

(** ** Layers without a usable topology *)
Lemma add_dependencies_dep0 G k cur l : exists G', add_dependencies G [k] cur [dep0 l] = Ok G'.
Proof. eexists. reflexivity. Qed.
Lemma one_to_one_locations (L : layer value) k i : inbound L = [i] -> get_spatial_dependency L = one_to_one_dependencies [out_shape L] ->
  forall ls G, (forall l, In l ls -> in_shape (out_shape L) l) -> exists G', add_locations G L k ls = Ok G'.
Proof.
  intros EI EG. induction ls as [|l ls IH]; intros G H; cbn [add_locations]; [eauto|].
  rewrite EG, one_to_one_1 by (apply H; now left). cbn [bind]. rewrite EI. cbn [add_dependencies nth_error input_index dep0 bind].
  apply IH. intros m Hm. apply H. now right.
Qed.
Lemma bad_locations (L : layer value) e k G : (forall l, get_spatial_dependency L l = Err e) -> 0 < volume (out_shape L) ->
  add_locations G L k (raster (out_shape L)) = Err e.
Proof.
  intros H HV. pose proof (raster_length (out_shape L)) as HL. destruct (raster (out_shape L)) as [|l ls]; [cbn in HL; lia|].
  cbn [add_locations]. now rewrite H.
Qed.

Lemma bad_layer_fails (S : graph) (B : klayer) e (draw : loc -> value -> value) zeros : inbound (body B) <> [] ->
  (forall l, get_spatial_dependency (body B) l = Err e) -> 0 < volume (out_shape (body B)) ->
  exists S' h', (do Sx <- normalize_layer (S ++ [B]) (length S); log_probs_layer (fst Sx) (snd Sx)) = Ok (S', h') /\
    fast_sample (keras_model (S', h')) zeros draw = Err e.
Proof.
  intros NI HB HV. unfold normalize_layer, log_probs_layer, one_to_one, info, call_layer.
  rewrite nth_error_app2, Nat.sub_diag by lia. cbn [nth_error bind fst snd].
  match goal with |- context [((S ++ [B]) ++ [?a])] => set (Nl := a) end.
  rewrite nth_error_app2, Nat.sub_diag by lia. cbn [nth_error bind fst snd].
  match goal with |- context [(((S ++ [B]) ++ [Nl]) ++ [?a])] => set (Pl := a) end.
  do 2 eexists. split; [reflexivity|].
  rewrite !app_length. cbn [length]. set (n := length S). replace (n + 1 + 1) with (Datatypes.S (Datatypes.S n)) by lia.
  unfold fast_sample, build_graph. cbn [keras_model output snd].
  set (M := keras_model (((S ++ [B]) ++ [Nl]) ++ [Pl], Datatypes.S (Datatypes.S n))).
  assert (E2 : layer_at M (Datatypes.S (Datatypes.S n)) = Ok (body Pl)).
  { unfold layer_at. cbn [M keras_model klayers fst]. rewrite nth_error_map, nth_error_app2 by (rewrite !app_length; cbn; fold n; lia).
    rewrite !app_length. cbn [length]. fold n. replace (Datatypes.S (Datatypes.S n) - (n + 1 + 1)) with 0 by lia. reflexivity. }
  assert (E1 : layer_at M (Datatypes.S n) = Ok (body Nl)).
  { unfold layer_at. cbn [M keras_model klayers fst]. rewrite nth_error_map, nth_error_app1 by (rewrite !app_length; cbn; fold n; lia).
    rewrite nth_error_app2 by (rewrite !app_length; cbn; fold n; lia).
    rewrite !app_length. cbn [length]. fold n. replace (Datatypes.S n - (n + 1)) with 0 by lia. reflexivity. }
  assert (E0 : layer_at M n = Ok (body B)).
  { unfold layer_at. cbn [M keras_model klayers fst]. rewrite nth_error_map, nth_error_app1 by (rewrite !app_length; cbn; fold n; lia).
    rewrite nth_error_app1 by (rewrite !app_length; cbn; fold n; lia). rewrite nth_error_app2 by (fold n; lia). fold n. rewrite Nat.sub_diag. reflexivity. }
  assert (V : forall (L : layer value) k i, inbound L = [i] -> get_spatial_dependency L = one_to_one_dependencies [out_shape L] ->
     forall G, exists G', dependency_graph_visitor G L k = Ok G').
  { intros L k i EI EG G. unfold dependency_graph_visitor. rewrite EI. apply (one_to_one_locations L k i EI EG). intros l Hl. now apply in_raster. }
  assert (IP : inbound (body Pl) = [Datatypes.S n]) by (cbn [Pl body inbound]; rewrite app_length; cbn; f_equal; fold n; lia).
  assert (IN : inbound (body Nl) = [n]) by reflexivity.
  assert (GP : get_spatial_dependency (body Pl) = one_to_one_dependencies [out_shape (body Pl)]).
  { cbn [Pl body get_spatial_dependency out_shape]. now rewrite stored_size. }
  assert (GN : get_spatial_dependency (body Nl) = one_to_one_dependencies [out_shape (body Nl)]).
  { cbn [Nl body get_spatial_dependency out_shape]. now rewrite stored_size. }
  clearbody Pl Nl.
  assert (M1 : mem Nat.eq_dec (Datatypes.S n) [Datatypes.S (Datatypes.S n)] = false).
  { unfold mem. destruct (in_dec _ _ _) as [[|[]]|]; [lia|reflexivity]. }
  assert (M2 : mem Nat.eq_dec n [Datatypes.S n; Datatypes.S (Datatypes.S n)] = false).
  { unfold mem. destruct (in_dec _ _ _) as [[|[|[]]]|]; [lia|lia|reflexivity]. }
  assert (F : visit_layer_predecessors M (Datatypes.S (Datatypes.S (Datatypes.S n))) (Datatypes.S (Datatypes.S n)) ([], empty_graph) = Err e).
  { cbn [visit_layer_predecessors]. rewrite E2. cbn [bind snd fst]. destruct (V (body Pl) (Datatypes.S (Datatypes.S n)) _ IP GP empty_graph) as (G2 & ->). cbn [bind].
    rewrite IP. cbn [fst]. rewrite M1.
    cbn [visit_layer_predecessors]. rewrite E1. cbn [bind snd fst]. destruct (V (body Nl) (Datatypes.S n) _ IN GN G2) as (G1 & ->). cbn [bind].
    rewrite IN. cbn [fst]. rewrite M2.
    cbn [visit_layer_predecessors]. rewrite E0. cbn [bind snd fst]. unfold dependency_graph_visitor.
    destruct (inbound (body B)) as [|i is'] eqn:EI; [contradiction|]. rewrite (bad_locations (body B) e n G1 HB HV). reflexivity. }
  match type of F with ?a = _ => match goal with |- context [visit_layer_predecessors ?m ?f ?k ?st] => change (visit_layer_predecessors m f k st) with a end end.
  rewrite F. reflexivity.
Qed.

Lemma equal_spins_fails G F shape S h draw zeros : graph_of G F shape S h -> 0 < volume shape ->
  exists S' h', conditional_log_probs_graph G true shape = Ok (S', h') /\ fast_sample (keras_model (S', h')) zeros draw = Err UnsupportedLayer.
Proof.
  intros (EG & EI & WF & _) HV. unfold conditional_log_probs_graph in *.
  destruct (G [input_klayer shape] 0) as [[S1 h1]|]; [|discriminate]. cbn [bind fst snd] in *.
  unfold normalize_layer, log_probs_layer, one_to_one in EG.
  destruct (info S1 h1) as [L|] eqn:EL; [|discriminate]. cbn [bind call_layer] in EG. unfold call_layer in EG at 1. cbn [bind fst snd] in EG.
  unfold info in EG at 1. rewrite nth_error_app2, Nat.sub_diag in EG by lia. cbn [nth_error bind] in EG.
  assert (HS : out_shape (body L) = shape).
  { unfold info in EG. rewrite nth_error_app2, Nat.sub_diag in EG by lia. cbn [nth_error bind call_layer] in EG. unfold call_layer in EG.
    destruct WF as ((L0 & E0 & _ & LO & EO & ES & _) & _). cbn [keras_model klayers output fst snd] in E0, EO. rewrite nth_error_map, EI in E0.
    injection E0 as <-. injection EG as <- <-. rewrite nth_error_map, nth_error_app2, Nat.sub_diag in EO by lia. injection EO as <-. exact ES. }
  unfold equal_up_down_spins_layer. rewrite EL. cbn [bind]. unfold call_layer at 1. cbn [bind fst snd].
  apply bad_layer_fails; [discriminate|reflexivity|]. cbn [body out_shape]. now rewrite HS.
Qed.

Lemma custom_ordering_fails o p W act shape S h draw zeros : 0 < volume shape ->
  conditional_log_probs_graph (custom_ordering_graph o p W act) false shape = Ok (S, h) ->
  fast_sample (keras_model (S, h)) zeros draw = Err TypeError.
Proof.
  intros HV. unfold conditional_log_probs_graph. destruct (custom_ordering_graph o p W act [input_klayer shape] 0) as [[S1 h1]|] eqn:EC; [|discriminate].
  cbn [bind fst snd]. intros EG.
  assert (K : exists S0 B, S1 = S0 ++ [B] /\ h1 = length S0 /\ inbound (body B) <> [] /\ out_shape (body B) = shape /\ forall l, get_spatial_dependency (body B) l = Err TypeError).
  { unfold custom_ordering_graph in EC. cbn [info nth_error bind] in EC.
    repeat match type of EC with (do _ <- ?m; _) = Ok _ => destruct m; cbn [bind] in EC; [|discriminate EC] end.
    unfold reshape_klayer in EC. cbn [input_klayer body out_shape] in EC.
    match type of EC with (do _ <- ?m; _) = Ok _ => destruct m as [L|]; cbn [bind] in EC; [|discriminate EC] end.
    match type of EC with (if ?b then _ else _) = _ => destruct b; [|discriminate EC] end. unfold call_layer in EC. injection EC as <- <-.
    do 2 eexists. split; [reflexivity|]. split; [reflexivity|]. cbn [body inbound out_shape get_spatial_dependency]. split; [discriminate|]. split; [reflexivity|].
    intros l. unfold reshape_dependencies_in_graph, reshape_target.
    assert (NB : existsb (Z.eqb (-1)) (map Z.of_nat (shape ++ [lfeatures L])) = false).
    { clear. induction (shape ++ [lfeatures L]) as [|b r IH]; [reflexivity|]. cbn [map existsb]. rewrite IH. destruct (Z.eqb_spec (-1) (Z.of_nat b)); [lia|reflexivity]. }
    rewrite NB. cbn [bind]. rewrite map_app. cbn [map]. rewrite !last_last, Z.eqb_refl. reflexivity. }
  destruct K as (S0 & B & -> & -> & NI & HS & HB). destruct (bad_layer_fails S0 B TypeError draw zeros NI HB) as (S' & h' & E & HF); [now rewrite HS|].
  rewrite EG in E. injection E as -> ->. exact HF.
Qed.
