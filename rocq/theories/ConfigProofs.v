From Coq Require Import Ascii String List ZArith Bool Arith Reals Lia.
From Verif Require Import Base IsingModel IsingProofs TensorModel ConfigModel ConfigSpec CallbackProofs.
Import ListNotations.
Local Open Scope string_scope.
Local Open Scope list_scope.
Local Open Scope nat_scope.

Lemma pyval_induction (P : pyval -> Prop) :
  P VNone -> (forall b, P (VBool b)) -> (forall z, P (VInt z)) -> (forall x, P (VFloat x)) -> (forall s, P (VStr s)) ->
  (forall l, Forall P l -> P (VTuple l)) -> (forall l, Forall P l -> P (VList l)) -> (forall l, Forall (fun kv => P (snd kv)) l -> P (VDict l)) ->
  (forall l, P (VArray l)) -> P VTensor -> forall v, P v.
Proof.
  intros H1 H2 H3 H4 H5 H6 H7 H8 H9 H10. fix IH 1. intros [ | b | z | x | s | l | l | l | l | ];
    [exact H1|apply H2|apply H3|apply H4|apply H5| | | |apply H9|exact H10].
  - apply H6. induction l as [|x t IHl]; constructor; [apply IH|exact IHl].
  - apply H7. induction l as [|x t IHl]; constructor; [apply IH|exact IHl].
  - apply H8. induction l as [|[k x] t IHl]; constructor; [apply IH|exact IHl].
Qed.

Lemma json_plain : forall v, json_safe v -> json v = Ok (plain v).
Proof.
  apply (pyval_induction (fun v => json_safe v -> json v = Ok (plain v))); intros; try reflexivity.
  - cbn [json plain]. match goal with |- (do r <- ?g l ; _) = _ => assert (E : g l = Ok (map plain l)) end.
    { cbn [json_safe] in H0. induction l as [|x t IHl]; [reflexivity|]. inversion H; subst. destruct H0 as [A B].
      rewrite (H3 A). cbn [bind]. rewrite (IHl H4 B). reflexivity. }
    rewrite E. reflexivity.
  - cbn [json plain]. match goal with |- (do r <- ?g l ; _) = _ => assert (E : g l = Ok (map plain l)) end.
    { cbn [json_safe] in H0. induction l as [|x t IHl]; [reflexivity|]. inversion H; subst. destruct H0 as [A B].
      rewrite (H3 A). cbn [bind]. rewrite (IHl H4 B). reflexivity. }
    rewrite E. reflexivity.
  - cbn [json plain]. match goal with |- (do r <- ?g l ; _) = _ => assert (E : g l = Ok (map (fun kv => (fst kv, plain (snd kv))) l)) end.
    { cbn [json_safe] in H0. induction l as [|[k x] t IHl]; [reflexivity|]. inversion H; subst. destruct H0 as [A B]. cbn [snd] in H3.
      rewrite (H3 A). cbn [bind]. rewrite (IHl H4 B). reflexivity. }
    rewrite E. reflexivity.
  - destruct H.
Qed.
Lemma plain_plain : forall v, plain (plain v) = plain v.
Proof.
  apply pyval_induction; intros; try reflexivity; cbn [plain].
  - f_equal. rewrite map_map. apply map_ext_in. intros a Ha. rewrite Forall_forall in H. auto.
  - f_equal. rewrite map_map. apply map_ext_in. intros a Ha. rewrite Forall_forall in H. auto.
  - f_equal. rewrite map_map. apply map_ext_in. intros [k a] Ha. cbn [fst snd]. rewrite Forall_forall in H. f_equal. apply (H _ Ha).
  - f_equal. rewrite map_map. reflexivity.
Qed.
Lemma native_plain : forall v, json_native v -> json_safe v /\ plain v = v.
Proof.
  apply (pyval_induction (fun v => json_native v -> json_safe v /\ plain v = v)); intros; cbn [json_native] in *; try tauto; try (split; [exact Logic.I|reflexivity]).
  - cbn [json_safe plain]. assert (G : (fix all l := match l with [] => True | x :: t => json_safe x /\ all t end) l /\ map plain l = l).
    { induction l as [|x t IHl]; [split; [exact Logic.I|reflexivity]|]. inversion H; subst. destruct H0 as [A B]. destruct (H3 A) as [S E].
      destruct (IHl H4 B) as [S' E']. split; [split; assumption|]. cbn [map]. now rewrite E, E'. }
    destruct G as [G E]. split; [exact G|]. now rewrite E.
  - cbn [json_safe plain].
    assert (G : (fix all (l : list (string * pyval)) := match l with [] => True | (_, x) :: t => json_safe x /\ all t end) l /\
                map (fun kv => (fst kv, plain (snd kv))) l = l).
    { induction l as [|[k x] t IHl]; [split; [exact Logic.I|reflexivity]|]. inversion H; subst. destruct H0 as [A B]. cbn [snd] in H3. destruct (H3 A) as [S E].
      destruct (IHl H4 B) as [S' E']. split; [split; assumption|]. cbn [map fst snd]. now rewrite E, E'. }
    destruct G as [G E]. split; [exact G|]. now rewrite E.
Qed.
Definition safe_config (c : config) : Prop := json_safe (VDict c).
Lemma safe_app a b : safe_config (a ++ b) <-> safe_config a /\ safe_config b.
Proof.
  unfold safe_config. induction a as [|[k x] t IH]; [cbn; tauto|]. cbn [app json_safe] in *. tauto.
Qed.
Definition plain_config (c : config) : config := map (fun kv => (fst kv, plain (snd kv))) c.
Lemma json_config_plain c : safe_config c -> json_config c = Ok (plain_config c).
Proof. intros H. unfold json_config. rewrite (json_plain _ H). reflexivity. Qed.
Lemma base_safe b : safe_config (base_items b).
Proof. unfold safe_config, base_items. cbn. destruct (bdtype b); repeat split. Qed.
Lemma base_plain b : plain_config (base_items b) = base_items b.
Proof. unfold base_items. cbn. destruct (bdtype b); reflexivity. Qed.
Lemma make_base_items b : make_base (base_items b) = Ok b.
Proof. destruct b as [n t [d|]]; reflexivity. Qed.

Lemma safe_list l : (forall v, In v l -> json_safe v) -> json_safe (VList l) /\ json_safe (VTuple l).
Proof.
  intros H. cbn [json_safe]. induction l as [|x t IH]; [split; exact Logic.I|].
  destruct IH as [IH _]; [intros v Hv; apply H; now right|]. split; (split; [apply H; now left|exact IH]).
Qed.
Lemma sequence_safe l v : sequence_of l v -> json_safe v /\ plain v = VList (map VInt l).
Proof.
  intros [-> | [-> | ->]].
  - split; [apply safe_list; intros v Hv; apply in_map_iff in Hv; destruct Hv as [z [<- _]]; exact Logic.I|]. cbn [plain]. now rewrite map_map.
  - split; [apply safe_list; intros v Hv; apply in_map_iff in Hv; destruct Hv as [z [<- _]]; exact Logic.I|]. cbn [plain]. now rewrite map_map.
  - split; [exact Logic.I|reflexivity].
Qed.
Lemma mapM_ints l : mapM as_int (map VInt l) = Ok l.
Proof. induction l as [|z t IH]; [reflexivity|]. cbn [map mapM as_int bind]. rewrite IH. reflexivity. Qed.
Lemma sequence_ints l v : sequence_of l v -> as_ints v = Ok l.
Proof. intros [-> | [-> | ->]]; cbn [as_ints]; [apply mapM_ints|apply mapM_ints|reflexivity]. Qed.
Lemma mapM_pads l : mapM padding_entry (map VInt l) = Ok (map (fun z => (z, z)) l).
Proof. induction l as [|z t IH]; [reflexivity|]. cbn [map mapM padding_entry bind]. rewrite IH. reflexivity. Qed.
Lemma sequence_pads l v : sequence_of l v -> padding_entries v = Ok (map (fun z => (z, z)) l).
Proof. intros [-> | [-> | ->]]; cbn [padding_entries]; [apply mapM_pads|apply mapM_pads|reflexivity]. Qed.
Lemma sequence_len l v : sequence_of l v -> py_len v = Ok (List.length l).
Proof. intros [-> | [-> | ->]]; cbn [py_len]; now rewrite ?map_length. Qed.
Lemma sequence_list l : sequence_of l (VList (map VInt l)).
Proof. right. left. reflexivity. Qed.

(** ** Filtering of the configurations *)
Lemma base_key_spec k : existsb (String.eqb k) ["name"; "trainable"; "dtype"] = true <-> base_key k.
Proof.
  unfold base_key. cbn [existsb]. rewrite !orb_true_iff, !String.eqb_eq. split; [intros [H|[H|[H|H]]]; auto; discriminate|intros [H|[H|H]]; auto].
Qed.
Lemma without_base_app b args : no_base_keys args -> without ["name"; "trainable"; "dtype"] (base_items b ++ args) = args.
Proof.
  intros H. unfold without. rewrite filter_app.
  assert (E : filter (fun kv => negb (existsb (String.eqb (fst kv)) ["name"; "trainable"; "dtype"])) args = args).
  { induction args as [|[k v] t IH]; [reflexivity|]. cbn [filter fst].
    destruct (existsb (String.eqb k) ["name"; "trainable"; "dtype"]) eqn:E.
    - apply base_key_spec in E. exfalso. apply (H k v); [now left|exact E].
    - cbn [negb]. f_equal. apply IH. intros k' v' I. apply (H k' v'). now right. }
  rewrite E. reflexivity.
Qed.
Lemma only_base_app b args : no_base_keys args -> only ["name"; "trainable"; "dtype"] (base_items b ++ args) = base_items b.
Proof.
  intros H. unfold only. rewrite filter_app.
  assert (E : filter (fun kv => existsb (String.eqb (fst kv)) ["name"; "trainable"; "dtype"]) args = []).
  { induction args as [|[k v] t IH]; [reflexivity|]. cbn [filter fst].
    destruct (existsb (String.eqb k) ["name"; "trainable"; "dtype"]) eqn:E.
    - apply base_key_spec in E. exfalso. apply (H k v); [now left|exact E].
    - apply IH. intros k' v' I. apply (H k' v'). now right. }
  rewrite E. rewrite app_nil_r. reflexivity.
Qed.
Lemma no_base_plain args : no_base_keys args -> no_base_keys (plain_config args).
Proof.
  intros H k v I. unfold plain_config in I. apply in_map_iff in I. destruct I as [[k' v'] [E I]]. injection E as <- _. exact (H _ _ I).
Qed.

Lemma plain_app a b : plain_config (a ++ b) = plain_config a ++ plain_config b.
Proof. apply map_app. Qed.

Lemma round_trip strict l : ordinary (attrs l) -> exists l', reload strict l = Ok l' /\ restored l l'.
Proof.
  destruct l as [b a]. cbn [attrs]. intros H. unfold reload, restored. cbn [attrs base].
  assert (J : forall args, safe_config args -> json_config (base_items b ++ args) = Ok (base_items b ++ plain_config args)).
  { intros args Ha. rewrite json_config_plain by (apply safe_app; split; [apply base_safe|exact Ha]). now rewrite plain_app, base_plain. }
  destruct H as [s | l i ax Hs | l p Hs | l m r ax Hr Ha Hl | k | c Hc | ax | n c p e Hc | c code closure Hc Hcl | n args Hs Hk].
  - cbn [get_config attrs base bind class_of]. rewrite J by (repeat split). cbn [bind].
    exists {| base := b; attrs := ACasting (VStr s) |}. split; [destruct b as [? ? [?|]]; reflexivity|].
    split; [reflexivity|]. split; [reflexivity|]. eexists. split; reflexivity.
  - cbn [get_config attrs base bind class_of]. destruct (sequence_safe _ _ Hs) as [S E]. rewrite J by (repeat split; exact S). cbn [bind plain_config map fst snd].
    rewrite E. exists {| base := b; attrs := AGather (VList (map VInt l)) (VInt ax) |}. split; [destruct b as [? ? [?|]]; reflexivity|].
    split; [reflexivity|]. split; [reflexivity|]. unfold action_of. cbn [attrs]. rewrite (sequence_ints _ _ Hs), (sequence_ints _ _ (sequence_list l)).
    eexists. split; reflexivity.
  - cbn [get_config attrs base bind class_of]. destruct (sequence_safe _ _ Hs) as [S E]. rewrite J by (repeat split; exact S). cbn [bind plain_config map fst snd].
    rewrite E. exists {| base := b; attrs := APadding (VList (map VInt l)) |}. split; [destruct b as [? ? [?|]]; reflexivity|].
    split; [reflexivity|]. split; [reflexivity|]. unfold action_of. cbn [attrs]. rewrite (sequence_pads _ _ Hs), (sequence_pads _ _ (sequence_list l)).
    eexists. split; reflexivity.
  - cbn [get_config attrs base bind class_of]. destruct (sequence_safe _ _ Hr) as [S E]. destruct (sequence_safe _ _ Ha) as [S' E'].
    rewrite J by (repeat split; assumption). cbn [bind plain_config map fst snd]. rewrite E, E'.
    exists {| base := b; attrs := ARoll (VList (map VInt l)) (VList (map VInt m)) |}. split.
    + unfold from_config, construct, required.
      assert (G : get "roll_for_axis" (base_items b ++ [("roll_for_axis", VList (map VInt l)); ("axes_to_roll", VList (map VInt m))]) = Some (VList (map VInt l)))
        by (destruct b as [? ? [?|]]; reflexivity). rewrite G. cbn [bind].
      assert (G2 : make_base (without ["roll_for_axis"; "axes_to_roll"] (base_items b ++ [("roll_for_axis", VList (map VInt l)); ("axes_to_roll", VList (map VInt m))])) = Ok b)
        by (destruct b as [? ? [?|]]; reflexivity). rewrite G2. cbn [bind].
      assert (G3 : optional "axes_to_roll" VNone (base_items b ++ [("roll_for_axis", VList (map VInt l)); ("axes_to_roll", VList (map VInt m))]) = VList (map VInt m))
        by (destruct b as [? ? [?|]]; reflexivity). rewrite G3. cbn [py_len bind]. rewrite !map_length, Hl, Nat.eqb_refl. reflexivity.
    + split; [reflexivity|]. split; [reflexivity|]. unfold action_of. cbn [attrs].
      rewrite (sequence_ints _ _ Hr), (sequence_ints _ _ Ha), (sequence_ints _ _ (sequence_list l)), (sequence_ints _ _ (sequence_list m)).
      eexists. split; reflexivity.
  - cbn [get_config attrs base bind class_of]. rewrite J by (repeat split). cbn [bind].
    exists {| base := b; attrs := ARot90 (VInt k) |}. split; [destruct b as [? ? [?|]]; reflexivity|].
    split; [reflexivity|]. split; [reflexivity|]. eexists. split; reflexivity.
  - cbn [get_config attrs base]. unfold default_config. replace (strict && negb (List.length (@nil string) =? 0)) with false by (destruct strict; reflexivity).
    cbn [bind class_of]. specialize (J [] Logic.I). rewrite app_nil_r in J. rewrite J. cbn [bind]. cbn [plain_config map]. rewrite app_nil_r.
    exists {| base := b; attrs := APlain c |}. split.
    + unfold from_config, construct, make. rewrite make_base_items. destruct Hc as [<- | [<- | [<- | [<- | [<- | []]]]]]; reflexivity.
    + split; [reflexivity|]. split; [reflexivity|]. eexists. split; reflexivity.
  - cbn [get_config attrs base bind class_of]. rewrite J by (repeat split). cbn [bind].
    exists {| base := b; attrs := AToComplex (VInt ax) |}. split; [destruct b as [? ? [?|]]; reflexivity|].
    split; [reflexivity|]. split; [reflexivity|]. eexists. split; reflexivity.
  - cbn [get_config attrs base bind class_of]. rewrite J by (repeat split; exact Hc). cbn [bind plain_config map fst snd plain].
    exists {| base := b; attrs := AWeightNorm n (plain_config c) (VBool p) (VBool e) |}. split; [destruct b as [? ? [?|]]; reflexivity|].
    split; [reflexivity|]. split; [reflexivity|]. unfold action_of. cbn [attrs]. eexists. split; [reflexivity|].
    rewrite <- (plain_plain (VDict c)). reflexivity.
  - cbn [get_config attrs base function_config bind class_of].
    assert (S : json_safe (VTuple closure) /\ map plain closure = closure).
    { split; [apply safe_list; intros v Hv; apply (native_plain v (Hcl v Hv))|]. rewrite <- (map_id closure) at 2. apply map_ext_in. intros v Hv.
      apply (native_plain v (Hcl v Hv)). }
    destruct S as [S E]. rewrite J by (repeat split; exact S). cbn [bind plain_config map fst snd plain]. rewrite E.
    exists {| base := b; attrs := ALambda c (Function code closure) |}. split; [destruct Hc as [-> | ->]; destruct b as [? ? [?|]]; reflexivity|].
    split; [reflexivity|]. split; [reflexivity|]. eexists. split; reflexivity.
  - cbn [get_config attrs base bind class_of]. rewrite J by exact Hs. cbn [bind].
    exists {| base := b; attrs := ABuiltin n (plain_config args) |}. split.
    + unfold from_config, construct, make. rewrite only_base_app, without_base_app by (now apply no_base_plain). rewrite make_base_items. reflexivity.
    + split; [reflexivity|]. split; [reflexivity|]. unfold action_of. cbn [attrs]. eexists. split; [reflexivity|].
      rewrite <- (plain_plain (VDict args)). reflexivity.
Qed.

(** ** Lists of layers *)
Lemma mapM_forall2 {A B} (f : A -> res B) l r : Forall2 (fun a b => f a = Ok b) l r -> mapM f l = Ok r.
Proof. induction 1 as [|a b l r H _ IH]; [reflexivity|]. cbn [mapM]. rewrite H. cbn [bind]. now rewrite IH. Qed.

Lemma network_ok strict ls : Forall (fun l => ordinary (attrs l)) ls ->
  exists s ls', save_model strict ls = Ok s /\ load_model s = Ok ls' /\ Forall2 restored ls ls'.
Proof.
  intros H.
  assert (G : exists cs js ls', Forall2 (fun l c => get_config strict l = Ok c) ls cs /\ Forall2 (fun c j => json_config c = Ok j) cs js /\
              Forall2 (fun (cj : class * config) l' => from_config (fst cj) (snd cj) = Ok l') (combine (map (fun l => class_of (attrs l)) ls) js) ls' /\ Forall2 restored ls ls').
  { induction H as [|l t Hl Ht IH]; [exists [], [], []; repeat split; constructor|].
    destruct IH as [cs [js [ls' [A [B [C D]]]]]]. destruct (round_trip strict l Hl) as [l' [E R]]. unfold reload in E.
    destruct (get_config strict l) as [c|] eqn:E1; [|discriminate]. cbn [bind] in E. destruct (json_config c) as [j|] eqn:E2; [|discriminate]. cbn [bind] in E.
    exists (c :: cs), (j :: js), (l' :: ls'). repeat split; try (constructor; assumption). }
  destruct G as [cs [js [ls' [A [B [C D]]]]]]. unfold save_model, load_model. rewrite (mapM_forall2 _ _ _ A). cbn [bind]. rewrite (mapM_forall2 _ _ _ B). cbn [bind].
  eexists. exists ls'. split; [reflexivity|]. split; [|exact D]. now apply mapM_forall2.
Qed.

Lemma save_fails strict ls e : (forall l, In l ls -> get_config strict l = Err e \/ exists c, get_config strict l = Ok c) ->
  (exists l, In l ls /\ get_config strict l = Err e) -> save_model strict ls = Err e.
Proof. intros H1 H2. unfold save_model. rewrite (mapM_err _ _ _ H1 H2). reflexivity. Qed.

Lemma ordinary_config strict l : ordinary (attrs l) -> exists c, get_config strict l = Ok c.
Proof.
  intros H. destruct (round_trip strict l H) as [l' [E _]]. unfold reload in E. destruct (get_config strict l) as [c|]; [now exists c|discriminate].
Qed.

(** ** The machines *)
Definition all_ordinary (ls : list layer) : Prop := Forall (fun l => ordinary (attrs l)) ls.
Lemma all_app a b : all_ordinary a -> all_ordinary b -> all_ordinary (a ++ b).
Proof. intros. now apply Forall_app. Qed.
Lemma all_if (c : bool) a b : all_ordinary a -> all_ordinary b -> all_ordinary (if c then a else b).
Proof. destruct c; auto. Qed.
Lemma all_cons l t : ordinary (attrs l) -> all_ordinary t -> all_ordinary (l :: t).
Proof. now constructor. Qed.
Lemma all_nil : all_ordinary [].
Proof. constructor. Qed.
Lemma builtin_ordinary n args : json_safe (VDict args) -> (forall k, In k (map fst args) -> ~ base_key k) -> ordinary (attrs (builtin n args)).
Proof. intros H1 H2. apply O_builtin; [exact H1|]. intros k v I. apply H2. apply (in_map fst) in I. exact I. Qed.
Ltac keys := let k := fresh "key" in let K := fresh "K" in intros k K; cbn [map fst In] in K; unfold base_key; intuition (subst; try discriminate); congruence.
Lemma ints_safe l : json_safe (VTuple (map VInt l)).
Proof. apply (sequence_safe l). now left. Qed.
Lemma input_ordinary shape : ordinary (attrs (input_layer shape)).
Proof. apply builtin_ordinary; [|keys]. cbn [json_safe]. split; [|exact Logic.I]. split; [exact Logic.I|]. apply (ints_safe shape). Qed.
Lemma activation_ordinary a : ordinary (attrs (activation_layer a)).
Proof. apply builtin_ordinary; [repeat split|keys]. Qed.
Lemma conv_safe size filters dilation : json_safe size ->
  safe_config [("filters", VInt (Z.of_nat filters)); ("kernel_size", size); ("dilation_rate", VInt (Z.of_nat dilation))].
Proof. intros H. repeat split. exact H. Qed.
Lemma convolution_ordinary rank filters size dilation : json_safe size -> ordinary (convolution rank filters size dilation).
Proof. intros H. apply (builtin_ordinary rank); [now apply conv_safe|keys]. Qed.
Lemma normalized_ordinary wn ex rank filters size dilation : json_safe size ->
  ordinary (attrs (maybe_normalized wn ex (convolution rank filters size dilation))).
Proof.
  intros H. unfold maybe_normalized, convolution. destruct wn.
  - apply O_weight. apply (safe_app (base_items auto)). split; [apply base_safe|now apply conv_safe].
  - now apply convolution_ordinary.
Qed.
Ltac ord :=
  repeat first
    [ apply all_nil | apply all_app | apply all_if | apply all_cons
    | apply activation_ordinary | apply input_ordinary | apply normalized_ordinary
    | apply O_cast | apply O_complex | apply O_rot
    | (apply O_plain; cbn; tauto)
    | (apply builtin_ordinary; [repeat split | keys]) ].
Lemma causal_1d_ordinary a f s wn d act skip : all_ordinary (causal_conv_1d a f s wn d act skip).
Proof. unfold causal_conv_1d. ord; exact Logic.I. Qed.
Lemma stack_1d_ordinary a k : forall todo i f wn ud sk md d, all_ordinary (conv_stack_1d a k todo i f wn ud sk md d).
Proof. induction todo as [|t IH]; intros; [apply all_nil|]. cbn [conv_stack_1d]. apply all_app; [apply causal_1d_ordinary|apply IH]. Qed.
Lemma body_ordinary a k depth f wn ud sk md e : all_ordinary (simple_conv_body a k depth f wn ud sk md e).
Proof. unfold simple_conv_body. ord; first [apply stack_1d_ordinary|apply causal_1d_ordinary|exact Logic.I]. Qed.
Lemma causal_2d_ordinary a k f wn ex m : all_ordinary (causal_conv_2d a k f wn ex m).
Proof. unfold causal_conv_2d, zero_padding_2d. ord; repeat split. Qed.
Lemma residual_ordinary a k f wn ex : all_ordinary (residual_block a k f wn ex).
Proof. unfold residual_block. ord; first [apply causal_2d_ordinary|repeat split]. Qed.
Lemma flat_ordinary {A} (f : A -> list layer) l : (forall x, all_ordinary (f x)) -> all_ordinary (flat_map f l).
Proof. intros H. induction l as [|x t IH]; [apply all_nil|]. cbn [flat_map]. now apply all_app. Qed.

(** The layers of a machine before the ones added by the abstract class. *)
Definition ends (ls final : list layer) : Prop := exists body, ls = body ++ final /\ all_ordinary body.
Lemma simple_ends shape a k depth f wn ud sk md eq : ends (simple_conv_layers shape a k depth f wn ud sk md eq) (final_layers eq).
Proof.
  exists (input_layer shape :: simple_conv_body a k depth f wn ud sk md true). split; [reflexivity|].
  apply all_cons; [apply input_ordinary|apply body_ordinary].
Qed.
Lemma custom_ends shape a k order inverse depth f wn ud sk md : ends (custom_ordering_layers shape a k order inverse depth f wn ud sk md) (final_layers false).
Proof.
  eexists. split; [unfold custom_ordering_layers; rewrite !app_comm_cons, app_assoc; reflexivity|].
  apply all_app; [apply all_cons; [apply input_ordinary|]; apply all_cons; [apply O_plain; cbn; tauto|]; apply all_cons; [ord|];
    apply all_cons; [apply (O_gather order); now apply sequence_list|apply body_ordinary]|].
  apply all_cons; [apply (O_gather inverse); apply sequence_list|]. apply all_cons; [|apply all_nil].
  apply builtin_ordinary; [|keys]. split; [|exact Logic.I]. apply safe_list. intros v Hv. apply in_app_iff in Hv.
  destruct Hv as [Hv|[<-|[]]]; [|exact Logic.I]. apply in_map_iff in Hv. destruct Hv as [z [<- _]]. exact Logic.I.
Qed.
Lemma conv_2d_ends shape a k depth f wn ex eq : ends (conv_net_2d_layers shape a k depth f wn ex eq) (final_layers eq).
Proof.
  eexists. split; [unfold conv_net_2d_layers; rewrite !app_comm_cons, !app_assoc; reflexivity|].
  ord; first [apply causal_2d_ordinary|apply flat_ordinary; intros; apply residual_ordinary|apply convolution_ordinary; exact Logic.I|repeat split].
Qed.

Lemma final_cases strict eq l : In l (final_layers eq) -> get_config strict l = Err AttributeError \/ exists c, get_config strict l = Ok c.
Proof.
  unfold final_layers. intros H. apply in_app_iff in H. destruct H as [H|H].
  - destruct eq; [|destruct H]. destruct H as [<- | []]. right. eexists. reflexivity.
  - cbn [In] in H. destruct H as [<- | [<- | [<- | [<- | []]]]]; [left; reflexivity|right; eexists; reflexivity..].
Qed.
Lemma final_normalizes eq : In (lambda_layer NormalizeInLogSpace "conditional_log_wave_function") (final_layers eq).
Proof. unfold final_layers. apply in_app_iff. right. now left. Qed.
Lemma ends_fail strict ls eq : ends ls (final_layers eq) -> save_model strict ls = Err AttributeError.
Proof.
  intros [body [-> H]]. apply save_fails.
  - intros l I. apply in_app_iff in I. destruct I as [I|I]; [|now apply final_cases with eq]. right. apply ordinary_config. unfold all_ordinary in H.
    rewrite Forall_forall in H. now apply H.
  - eexists. split; [apply in_app_iff; right; apply final_normalizes|reflexivity].
Qed.

(** The complex machine: its convolutions, in a strict release, are met before the layers of the abstract class. *)
Lemma mapM_app_err {A B} (f : A -> res B) a b e : mapM f a = Err e -> mapM f (a ++ b) = Err e.
Proof.
  revert e. induction a as [|x t IH]; intros e H; [discriminate|]. cbn [app mapM] in *. destruct (f x); cbn [bind] in *; [|exact H].
  destruct (mapM f t) eqn:E; cbn [bind] in *; [discriminate|]. rewrite (IH e0 eq_refl). exact H.
Qed.
Definition complex_or_ordinary (l : layer) : Prop := ordinary (attrs l) \/ exists c args, attrs l = AComplex c args.
Lemma complex_config_cases strict c args b : get_config strict {| base := b; attrs := AComplex c args |} = if strict then Err NotImplementedError else Ok (base_items b).
Proof. unfold get_config, default_config. cbn [attrs base]. destruct c; destruct strict; reflexivity. Qed.
Lemma complex_stack_cases a k : forall todo f ud md d, Forall complex_or_ordinary (complex_stack_1d a k todo f ud md d).
Proof.
  assert (W : forall ls, all_ordinary ls -> Forall complex_or_ordinary ls) by (intros ls H; eapply Forall_impl; [|exact H]; intros l Hl; now left).
  induction todo as [|t IH]; intros; [constructor|]. cbn [complex_stack_1d]. apply Forall_app. split; [|apply IH].
  unfold complex_conv_1d. apply Forall_app. split; [apply W; ord|]. apply Forall_app. split; [|apply W; ord].
  constructor; [|constructor]. right. eexists. eexists. reflexivity.
Qed.
Lemma complex_body_cases shape a k depth f ud md fl eq :
  exists body, complex_conv_layers shape a k depth f ud md fl eq = body ++ final_layers eq /\ Forall complex_or_ordinary body /\
    exists l c args, In l body /\ attrs l = AComplex c args.
Proof.
  assert (W : forall ls, all_ordinary ls -> Forall complex_or_ordinary ls) by (intros ls H; eapply Forall_impl; [|exact H]; intros l Hl; now left).
  eexists. split; [unfold complex_conv_layers; rewrite !app_comm_cons, !app_assoc; reflexivity|]. split.
  - apply Forall_app. split; [apply Forall_app; split; [apply Forall_app; split|]|].
    + apply W. ord.
    + apply complex_stack_cases.
    + apply W. ord.
    + unfold complex_conv_1d. cbn [Nat.ltb Nat.leb Nat.sub Nat.mul Nat.add app]. constructor; [|constructor]. right. eexists. eexists. reflexivity.
  - eexists. eexists. eexists. split; [apply in_app_iff; right; left; reflexivity|reflexivity].
Qed.
Lemma complex_fails strict shape a k depth f ud md fl eq :
  save_model strict (complex_conv_layers shape a k depth f ud md fl eq) = Err (if strict then NotImplementedError else AttributeError).
Proof.
  destruct (complex_body_cases shape a k depth f ud md fl eq) as [body [-> [H [l0 [c0 [args0 [I0 E0]]]]]]]. rewrite Forall_forall in H. destruct strict.
  - unfold save_model. rewrite (mapM_app_err (get_config true) body (final_layers eq) NotImplementedError); [reflexivity|]. apply mapM_err.
    + intros l I. destruct (H l I) as [O|[c [args E]]]; [right; now apply ordinary_config|left]. destruct l as [b at_]. cbn [attrs] in E. subst at_. apply (complex_config_cases true).
    + exists l0. split; [exact I0|]. destruct l0 as [b at_]. cbn [attrs] in E0. subst at_. apply (complex_config_cases true).
  - apply save_fails.
    + intros l I. apply in_app_iff in I. destruct I as [I|I]; [|now apply final_cases with eq]. right. destruct (H l I) as [O|[c [args E]]]; [now apply ordinary_config|].
      destruct l as [b at_]. cbn [attrs] in E. subst at_. rewrite complex_config_cases. eexists. reflexivity.
    + eexists. split; [apply in_app_iff; right; apply final_normalizes|reflexivity].
Qed.

Lemma input_config strict shape : get_config strict (input_layer shape) = Ok (base_items auto ++ [("batch_input_shape", VTuple (VNone :: map VInt shape))]).
Proof. reflexivity. Qed.
Lemma input_json shape : json_config (base_items auto ++ [("batch_input_shape", VTuple (VNone :: map VInt shape))]) =
  Ok (base_items auto ++ [("batch_input_shape", VList (VNone :: map VInt shape))]).
Proof.
  rewrite json_config_plain.
  - rewrite plain_app, base_plain. cbn [plain_config map fst snd plain]. rewrite map_map. reflexivity.
  - apply safe_app. split; [apply base_safe|]. split; [|exact Logic.I]. split; [exact Logic.I|apply (ints_safe shape)].
Qed.
