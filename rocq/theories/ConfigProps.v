(** C77: saving whole models, and rebuilding layers from their configurations. *)
From Coq Require Import Ascii String List ZArith Bool Arith Reals Lia Lra.
From Verif Require Import Base IsingModel TensorModel CallbackProofs ConfigModel ConfigSpec ConfigProofs.
Import ListNotations.
Local Open Scope string_scope.
Local Open Scope list_scope.
Local Open Scope nat_scope.

(** A layer of the repository which overrides get_config, or has no arguments, is rebuilt exactly by from_config(get_config()), whatever its arguments. *)
Theorem C77_clone (strict : bool) (l : layer) : configurable (attrs l) -> clone strict l = Ok l.
Proof.
  destruct l as [b a]. cbn [attrs]. intros H. unfold clone. cbn [attrs].
  destruct H as [t | i ax | p | l m r ax Hr Ha Hl | k | c Hc | ax | n c p e | c code closure Hc | n args Hk].
  - destruct b as [? ? [?|]]; reflexivity.
  - destruct b as [? ? [?|]]; reflexivity.
  - destruct b as [? ? [?|]]; reflexivity.
  - assert (L : (List.length m =? List.length l) = true) by (rewrite Hl; apply Nat.eqb_refl).
    destruct Hr as [-> | ->]; destruct Ha as [-> | ->]; destruct b as [? ? [?|]]; cbn -[Nat.eqb]; rewrite L; reflexivity.
  - destruct b as [? ? [?|]]; reflexivity.
  - cbn [get_config attrs base class_of]. unfold default_config. replace (strict && negb (List.length (@nil string) =? 0)) with false by (destruct strict; reflexivity).
    cbn [bind]. unfold from_config, construct, make. rewrite make_base_items. destruct Hc as [<- | [<- | [<- | [<- | [<- | []]]]]]; reflexivity.
  - destruct b as [? ? [?|]]; reflexivity.
  - destruct b as [? ? [?|]]; reflexivity.
  - destruct Hc as [-> | ->]; destruct b as [? ? [?|]]; reflexivity.
  - cbn [get_config attrs base class_of bind]. unfold from_config, construct, make. rewrite only_base_app, without_base_app by exact Hk.
    rewrite make_base_items. reflexivity.
Qed.
Print Assumptions C77_clone.
Example C77_clone_ex : configurable (APadding (VTuple [VTuple [VInt 1; VInt 0]; VInt 2])) /\ configurable (ARoll (VTuple [VInt 1; VInt 0]) (VList [VInt 1; VInt 2])).
Proof. split; [constructor|]. eapply F_roll; [left; reflexivity|right; reflexivity|reflexivity]. Qed.

(** Written to JSON and read back, a network of such layers with ordinary arguments comes back with the same classes and names, and each layer does the same:
    tuples and arrays of integers have become lists. *)
Theorem C77_saved_and_loaded (strict : bool) (ls : list layer) : (forall l, In l ls -> ordinary (attrs l)) ->
  exists s ls', save_model strict ls = Ok s /\ load_model s = Ok ls' /\ Forall2 restored ls ls'.
Proof. intros H. apply network_ok. now apply Forall_forall. Qed.
Print Assumptions C77_saved_and_loaded.
Example C77_saved_and_loaded_ex : forall l, In l [mk (AGather (VArray [2; 0; 1]%Z) (VInt 1)); mk (APadding (VTuple [VInt 1; VInt 0]));
  mk (AWeightNorm "Conv1D" [("kernel_size", VTuple [VInt 3])] (VBool true) (VBool false))] -> ordinary (attrs l).
Proof.
  intros l [<- | [<- | [<- | []]]]; [eapply O_gather; right; right; reflexivity|apply (O_pad [1; 0]%Z); left; reflexivity|apply O_weight; repeat split].
Qed.

(** With the optimizer: such a model can be saved when it was compiled with an optimizer of Keras, and never when it was compiled with stochastic
    reconfiguration; then saving raises AttributeError, whatever the layers are (or fails before, at a layer). *)
Theorem C77_optimizer_refuted (strict : bool) (ls : list layer) :
  ((forall l, In l ls -> ordinary (attrs l)) -> save_compiled strict ls ComplexValuesOptimizer = Err AttributeError /\
     forall args, exists s ls', save_compiled strict ls (KerasOptimizer args) = Ok (s, args) /\ load_model s = Ok ls' /\ Forall2 restored ls ls') /\
  (forall r, save_compiled strict ls ComplexValuesOptimizer <> Ok r).
Proof.
  split.
  - intros H. destruct (C77_saved_and_loaded strict ls H) as (s & ls' & S & L & F). unfold save_compiled. rewrite S. split; [reflexivity|]. intros args. exists s, ls'. auto.
  - intros r. unfold save_compiled. destruct (save_model strict ls); discriminate.
Qed.
Print Assumptions C77_optimizer_refuted.
Example C77_optimizer_ex : forall l, In l [mk (AGather (VArray [2; 0; 1]%Z) (VInt 1)); mk (APadding (VTuple [VInt 1; VInt 0]))] -> ordinary (attrs l).
Proof. intros l I. apply C77_saved_and_loaded_ex. cbn [In] in *. tauto. Qed.

(** Refuted for PeriodicPadding with different widths before and after: the tuple comes back as a list, which padding.py:24 does not unpack, and every call of the
    rebuilt layer raises TypeError. The layer itself works, and so does its clone. *)
Theorem C77_padding_refuted :
  (forall strict b (before after : list pyval) (w : list pyval), (forall v, In v before -> exists z, v = VInt z) ->
     (forall v, In v (w ++ after) -> json_safe v) ->
     exists p, reload strict {| base := b; attrs := APadding (VTuple (before ++ VTuple w :: after)) |} = Ok {| base := b; attrs := APadding p |} /\
       (forall (V : Type) (x : tensor V), padding_call p x = Err TypeError)) /\
  exists p t, clone true (mk (APadding p)) = Ok (mk (APadding p)) /\
    padding_call p {| tshape := [3]; tval := fun l => nth 0 l 0 |} = Ok t /\ tshape t = [4] /\ map (fun i => tval t [i]) [0; 1; 2; 3] = [2; 0; 1; 2].
Proof.
  split.
  - intros strict b before after w Hb Hs.
    assert (Sw : json_safe (VTuple w)) by (apply safe_list; intros v Hv; apply Hs; apply in_app_iff; now left).
    assert (S : json_safe (VTuple (before ++ VTuple w :: after))).
    { apply safe_list. intros v Hv. apply in_app_iff in Hv. destruct Hv as [Hv|[<- | Hv]]; [|exact Sw|apply Hs; apply in_app_iff; now right].
      destruct (Hb v Hv) as [z ->]. exact Logic.I. }
    exists (plain (VTuple (before ++ VTuple w :: after))). split.
    + unfold reload. cbn [get_config attrs base bind class_of].
      rewrite json_config_plain by (apply safe_app; split; [apply base_safe|split; [exact S|exact Logic.I]]).
      rewrite plain_app, base_plain. cbn [bind plain_config map fst snd]. generalize (plain (VTuple (before ++ VTuple w :: after))). intros q.
      destruct b as [? ? [?|]]; reflexivity.
    + intros V x. unfold padding_call. cbn [plain]. cbn [padding_entries].
      assert (E : mapM padding_entry (map plain (before ++ VTuple w :: after)) = Err TypeError).
      { clear Hs Sw S. induction before as [|v t IH]; [reflexivity|]. destruct (Hb v (or_introl eq_refl)) as [z ->].
        cbn [app map plain mapM padding_entry bind]. rewrite IH by (intros v Hv; apply Hb; now right). reflexivity. }
      rewrite E. reflexivity.
  - exists (VTuple [VTuple [VInt 1; VInt 0]]). eexists. split; [reflexivity|]. split; [reflexivity|]. split; reflexivity.
Qed.
Print Assumptions C77_padding_refuted.
Example C77_padding_ex : (forall v, In v [VInt 0; VInt 2] -> exists z, v = VInt z) /\ (forall v, In v ([VInt 1; VInt 0] ++ [VInt 3]) -> json_safe v).
Proof. split; intros v; cbn; intuition (subst; eauto; cbn; auto). Qed.

(** The subclasses of Lambda which bring their own function cannot be rebuilt: those around a functools.partial object have no configuration (AttributeError); the
    others have one, but it contains the function, which their constructors then pass twice (TypeError). *)
Theorem C77_lambda_refuted (strict : bool) (c : lambda_class) (kw : config) (l : layer) : make_lambda c None kw = Ok l ->
  (c = ToOneHot \/ c = NormalizeInLogSpace -> get_config strict l = Err AttributeError) /\
  (~ (c = ToOneHot \/ c = NormalizeInLogSpace) -> (exists s, save_model strict [l] = Ok s /\ load_model s = Err TypeError) /\ clone strict l = Err TypeError).
Proof.
  unfold make_lambda. destruct (own_function c) as [f|] eqn:E; [|discriminate]. unfold make.
  destruct (make_base (without (own_arguments c) kw)) as [b|]; [|discriminate]. cbn [bind]. intros H. injection H as <-. split.
  - intros [-> | ->]; injection E as <-; reflexivity.
  - intros N. destruct c; try (exfalso; apply N; tauto); try discriminate; injection E as <-; destruct b as [? ? [?|]];
      (split; [eexists; split; reflexivity|reflexivity]).
Qed.
Print Assumptions C77_lambda_refuted.
Example C77_lambda_ex : exists l l', make_lambda NormalizeInLogSpace None [("norm_type", VInt 2); ("name", VStr "conditional_log_wave_function")] = Ok l /\
  make_lambda CombineConditionals None [("name", VStr "wave_function")] = Ok l'.
Proof. eexists. eexists. split; reflexivity. Qed.

(** Layers with arguments and no get_config. LayerNormalization is rebuilt with the default epsilon, silently; the complex layers lack their required arguments.
    A strict release of tensorflow refuses to save either. *)
Theorem C77_no_config_refuted (b : base_config) :
  (forall eps, get_config true {| base := b; attrs := ALayerNorm eps |} = Err NotImplementedError /\
     exists l', reload false {| base := b; attrs := ALayerNorm eps |} = Ok l' /\ attrs l' = ALayerNorm (VFloat (1 / 100000)) /\
       (restored {| base := b; attrs := ALayerNorm eps |} l' <-> eps = VFloat (1 / 100000))) /\
  (forall c args, get_config true {| base := b; attrs := AComplex c args |} = Err NotImplementedError /\
     reload false {| base := b; attrs := AComplex c args |} = Err TypeError).
Proof.
  split.
  - intros eps. split; [reflexivity|]. exists {| base := b; attrs := ALayerNorm (VFloat (1 / 100000)) |}. split; [|split; [reflexivity|]].
    + destruct b as [? ? [?|]]; reflexivity.
    + unfold restored. cbn [base attrs class_of action_of]. split.
      * intros [_ [_ [a [A B]]]]. congruence.
      * intros ->. split; [reflexivity|]. split; [reflexivity|]. eexists. split; reflexivity.
  - intros c args. split; [destruct c; reflexivity|]. destruct b as [? ? [?|]]; destruct c; reflexivity.
Qed.
Print Assumptions C77_no_config_refuted.
Example C77_no_config_ex : exists eps, eps <> VFloat (1 / 100000).
Proof. exists (VFloat (1 / 1000)). intros H. injection H. lra. Qed.

(** Hence no machine can be saved whole: with the default save_weights_only=False the first checkpoint of CheckpointByTime raises, for every depth, width and
    option of the autoregressive machines. The restricted Boltzmann machines are written by a lenient release, to a file that cannot be loaded. *)
Theorem C77_machines_refuted (strict : bool) (shape : list Z) (activation : string) (kernel_size depth filters : nat) :
  (forall wn dilation skips max_dilation equal, checkpoint_save strict default_save_weights_only
     (simple_conv_layers shape activation kernel_size depth filters wn dilation skips max_dilation equal) = Err AttributeError) /\
  (forall order inverse wn dilation skips max_dilation, checkpoint_save strict default_save_weights_only
     (custom_ordering_layers shape activation kernel_size order inverse depth filters wn dilation skips max_dilation) = Err AttributeError) /\
  (forall wn exponential equal, checkpoint_save strict default_save_weights_only
     (conv_net_2d_layers shape activation kernel_size depth filters wn exponential equal) = Err AttributeError) /\
  (forall dilation max_dilation float64 equal, checkpoint_save strict default_save_weights_only
     (complex_conv_layers shape activation kernel_size depth filters dilation max_dilation float64 equal) =
     Err (if strict then NotImplementedError else AttributeError)) /\
  (forall machine alpha float64, machine = rbm_layers \/ machine = rbm_sym_layers ->
     checkpoint_save true default_save_weights_only (machine shape alpha float64) = Err NotImplementedError /\
     exists s, checkpoint_save false default_save_weights_only (machine shape alpha float64) = Ok (Some s) /\ load_model s = Err TypeError).
Proof.
  unfold checkpoint_save. change default_save_weights_only with false. cbv iota.
  split; [|split; [|split; [|split]]].
  - intros. rewrite (ends_fail strict _ equal); [reflexivity|apply simple_ends].
  - intros. rewrite (ends_fail strict _ false); [reflexivity|apply custom_ends].
  - intros. rewrite (ends_fail strict _ equal); [reflexivity|apply conv_2d_ends].
  - intros. rewrite complex_fails. reflexivity.
  - intros machine alpha float64 H. split.
    + destruct H as [-> | ->]; destruct float64; reflexivity.
    + destruct H as [-> | ->]; unfold save_model, rbm_layers, rbm_sym_layers; cbn [mapM]; rewrite input_config; destruct float64; cbn [bind];
        (eexists; split; [cbn -[json_config input_layer base_items]; rewrite input_json; reflexivity|reflexivity]).
Qed.
Print Assumptions C77_machines_refuted.

(** The only layers of the convolutional machines that stand in the way are the Lambda layers of the abstract class: all the others are ordinary. *)
Theorem C77_machine_bodies (shape : list Z) (activation : string) (kernel_size depth filters : nat) (wn : bool) (equal : bool) :
  (forall dilation skips max_dilation, exists body,
     simple_conv_layers shape activation kernel_size depth filters wn dilation skips max_dilation equal = body ++ final_layers equal /\
     forall strict, exists s ls', save_model strict body = Ok s /\ load_model s = Ok ls' /\ Forall2 restored body ls') /\
  (forall order inverse dilation skips max_dilation, exists body,
     custom_ordering_layers shape activation kernel_size order inverse depth filters wn dilation skips max_dilation = body ++ final_layers false /\
     forall strict, exists s ls', save_model strict body = Ok s /\ load_model s = Ok ls' /\ Forall2 restored body ls') /\
  (forall exponential, exists body,
     conv_net_2d_layers shape activation kernel_size depth filters wn exponential equal = body ++ final_layers equal /\
     forall strict, exists s ls', save_model strict body = Ok s /\ load_model s = Ok ls' /\ Forall2 restored body ls').
Proof.
  split; [|split]; intros.
  - destruct (simple_ends shape activation kernel_size depth filters wn dilation skips max_dilation equal) as [body [E H]]. exists body. split; [exact E|].
    intros strict. now apply network_ok.
  - destruct (custom_ends shape activation kernel_size order inverse depth filters wn dilation skips max_dilation) as [body [E H]]. exists body. split; [exact E|].
    intros strict. now apply network_ok.
  - destruct (conv_2d_ends shape activation kernel_size depth filters wn exponential equal) as [body [E H]]. exists body. split; [exact E|].
    intros strict. now apply network_ok.
Qed.
Print Assumptions C77_machine_bodies.
Example C77_machine_ex : List.length (conv_net_2d_layers [4; 4]%Z "relu" 3 4 32 true true false) = 109 /\
  List.length (simple_conv_layers [10]%Z "relu" 3 5 32 true true false None false) = 19.
Proof. split; reflexivity. Qed.

(** Ensembles: the probabilistic ones, the default, cannot be saved; the averaging one over the dihedral group can, if its inner model can; the averaging ones over
    translations or the spin flip cannot, since their functions capture tensors. *)
Theorem C77_ensembles (strict : bool) (shape : list Z) (shifts : list (list Z)) :
  save_model strict (obc_layers shape true) = Err AttributeError /\
  save_model strict (pbc_layers shape shifts true) = Err AttributeError /\
  save_model strict (up_down_layers shape true) = Err AttributeError /\
  (exists s ls', save_model strict (obc_layers shape false) = Ok s /\ load_model s = Ok ls' /\ Forall2 restored (obc_layers shape false) ls') /\
  save_model strict (pbc_layers shape shifts false) = Err TypeError /\
  save_model strict (up_down_layers shape false) = Err TypeError.
Proof.
  assert (L : forall s, ordinary (ARoll (VList (map VInt s)) (VList (map (fun i => VInt (Z.of_nat i)) (seq 1 (List.length s)))))).
  { intros s. apply (O_roll s (map Z.of_nat (seq 1 (List.length s)))); [apply sequence_list|right; left; now rewrite map_map|now rewrite map_length, seq_length]. }
  assert (OK : forall p l, In l (obc_layers shape p) -> ordinary (attrs l) \/ l = ensemble_lambda p).
  { intros p l [<- | I]; [left; apply input_ordinary|]. apply in_app_iff in I. destruct I as [I|I].
    - apply in_map_iff in I. destruct I as [k [<- _]]. left. constructor.
    - apply in_app_iff in I. destruct I as [I|I]; [apply repeat_spec in I; subst l; left; apply O_plain; now left|].
      destruct I as [<- | [<- | []]]; [left; apply builtin_ordinary; [repeat split|keys]|now right]. }
  assert (F : forall p, ordinary (attrs (ensemble_lambda p)) \/ get_config strict (ensemble_lambda p) = Err AttributeError).
  { intros [|]; [right; reflexivity|left]. apply O_lambda; [now left|intros v []]. }
  assert (J1 : json_config (base_items auto ++ [("function", VTuple [VStr "lambda x:tensorflow.reshape(x, (-1, len(symmetrization_inputs)))"; VNone; VTuple [VList [VTensor]]])])
    = Err TypeError) by reflexivity.
  assert (Sym : forall pre, all_ordinary pre -> save_model strict (pre ++ symmetrization_lambdas shape true) = Err AttributeError /\
     save_model strict (pre ++ symmetrization_lambdas shape false) = Err TypeError).
  { intros pre H. unfold all_ordinary in H. rewrite Forall_forall in H. split.
    - apply save_fails.
      + intros l I. apply in_app_iff in I. destruct I as [I|[<- | [<- | [<- | []]]]]; [right; apply ordinary_config; auto|right; eexists; reflexivity|right; eexists; reflexivity|left; reflexivity].
      + exists (ensemble_lambda true). split; [apply in_app_iff; right; right; right; now left|reflexivity].
    - unfold save_model.
      assert (G : exists cs, mapM (get_config strict) pre = Ok cs /\ forall c, In c cs -> exists j, json_config c = Ok j).
      { clear - H. induction pre as [|l t IH]; [exists []; split; [reflexivity|intros c []]|].
        destruct IH as [cs [E C]]; [intros x Hx; apply H; now right|]. destruct (round_trip strict l (H l (or_introl eq_refl))) as [l' [R _]]. unfold reload in R.
        destruct (get_config strict l) as [c|] eqn:E1; [|discriminate]. cbn [bind] in R. destruct (json_config c) as [j|] eqn:E2; [|discriminate].
        exists (c :: cs). split; [cbn [mapM]; rewrite E1; cbn [bind]; now rewrite E|]. intros c' [<- | I]; [now exists j|now apply C]. }
      destruct G as [cs [E C]].
      assert (E2 : exists c3, mapM (get_config strict) (pre ++ symmetrization_lambdas shape false) = Ok (cs ++ c3) /\
         In (base_items auto ++ [("function", VTuple [VStr "lambda x:tensorflow.reshape(x, (-1, len(symmetrization_inputs)))"; VNone; VTuple [VList [VTensor]]])]) c3 /\
         forall c, In c c3 -> json_config c = Err TypeError \/ exists j, json_config c = Ok j).
      { clear - E J1. revert cs E. induction pre as [|l t IH]; intros cs E.
        - injection E as <-. eexists. split; [reflexivity|]. split; [right; now left|]. intros c [<- | [<- | [<- | []]]]; [right|left; exact J1|right].
          + eexists. apply json_config_plain. apply safe_app. split; [apply base_safe|]. split; [|exact Logic.I].
            split; [exact Logic.I|]. split; [exact Logic.I|]. split; [|exact Logic.I]. split; [|exact Logic.I]. apply (ints_safe shape).
          + eexists. reflexivity.
        - cbn [app mapM] in *. destruct (get_config strict l); cbn [bind] in *; [|discriminate]. destruct (mapM (get_config strict) t) as [r|]; cbn [bind] in *; [|discriminate].
          injection E as <-. destruct (IH r eq_refl) as [c3 [A B]]. exists c3. rewrite A. split; [reflexivity|exact B]. }
      destruct E2 as [c3 [E2 [I3 C3]]]. rewrite E2. cbn [bind]. rewrite (mapM_err json_config (cs ++ c3) TypeError); [reflexivity| |].
      + intros c I. apply in_app_iff in I. destruct I as [I|I]; [right; now apply C|now apply C3].
      + eexists. split; [apply in_app_iff; right; exact I3|exact J1]. }
  split; [|split; [|split; [|split; [|split]]]].
  - apply save_fails.
    + intros l I. destruct (OK true l I) as [O| ->]; [right; now apply ordinary_config|]. left. reflexivity.
    + exists (ensemble_lambda true). split; [|reflexivity]. right. apply in_app_iff. right. apply in_app_iff. right. right. now left.
  - unfold pbc_layers. rewrite app_comm_cons. apply Sym. apply all_cons; [apply input_ordinary|]. apply Forall_forall. intros l I. apply in_map_iff in I.
    destruct I as [s [<- _]]. apply L.
  - apply (Sym [input_layer shape; mk (ALambda PlainLambda (Function "lambda x:x * -1" []))]).
    apply all_cons; [apply input_ordinary|]. apply all_cons; [apply O_lambda; [now left|intros v []]|apply all_nil].
  - apply network_ok. apply Forall_forall. intros l I. destruct (OK false l I) as [O| ->]; [exact O|]. apply O_lambda; [now left|intros v []].
  - unfold pbc_layers. rewrite app_comm_cons. apply Sym. apply all_cons; [apply input_ordinary|]. apply Forall_forall. intros l I. apply in_map_iff in I.
    destruct I as [s [<- _]]. apply L.
  - apply (Sym [input_layer shape; mk (ALambda PlainLambda (Function "lambda x:x * -1" []))]).
    apply all_cons; [apply input_ordinary|]. apply all_cons; [apply O_lambda; [now left|intros v []]|apply all_nil].
Qed.
Print Assumptions C77_ensembles.
Example C77_ensembles_ex : List.length (obc_layers [4; 4]%Z true) = 10 /\ List.length (pbc_layers [2; 2]%Z [[0; 0]; [0; 1]; [1; 0]; [1; 1]]%Z true) = 8.
Proof. split; reflexivity. Qed.
