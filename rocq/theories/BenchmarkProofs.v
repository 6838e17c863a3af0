(** Proofs about the network of examples/benchmark.py. *)
From Coq Require Import String List ZArith Arith Bool Reals Lia Lra Permutation.
From Verif Require Import Base Cplx OrderingModel TensorModel ComplexModel ComplexSpec ComplexProofs ComplexConvModel ComplexConvSpec ComplexConvProofs ComplexConvProps BenchmarkModel BenchmarkSpec.
Import ListNotations.
Local Open Scope nat_scope.

Lemma firstn_seq m n : firstn m (seq 0 n) = seq 0 (Nat.min m n).
Proof.
  destruct (Nat.le_gt_cases m n) as [H|H].
  - rewrite (Nat.min_l m n H). replace n with (m + (n - m)) at 1 by lia. rewrite seq_app, firstn_app, seq_length, Nat.sub_diag, firstn_O, app_nil_r. apply firstn_all2. rewrite seq_length. lia.
  - rewrite Nat.min_r by lia. apply firstn_all2. rewrite seq_length. lia.
Qed.
Lemma wrap_ok k x n : sizes x = [n] -> 0 < n -> exists y, wrap k x = Ok y /\ batch y = batch x /\ channels y = channels x /\ sizes y = [n + Nat.min (k - 1) n] /\
  forall b i c, i < n + Nat.min (k - 1) n -> pixel y b [i] c = pixel x b [i mod n] c.
Proof.
  intros S N. unfold wrap, periodic_padding. rewrite S. cbn [periodic_padding_from pad_before pad_after]. change (0 <? 0) with false. cbv iota zeta. cbn [app].
  set (g := fun i : nat => {| tshape := remove_nth 0 [n]; tval := fun l (b c : nat) => pixel x b (insert_nth 0 i l) c |}).
  assert (U : unstack {| tshape := [n]; tval := fun l (b c : nat) => pixel x b l c |} 0 = map g (seq 0 n)) by reflexivity. rewrite U.
  assert (P : (if 0 <? k - 1 then firstn (k - 1) (map g (seq 0 n)) else []) = map g (seq 0 (Nat.min (k - 1) n))).
  { destruct (Nat.ltb_spec 0 (k - 1)) as [H|H]; [rewrite firstn_map, firstn_seq; reflexivity|]. replace (Nat.min (k - 1) n) with 0 by lia. reflexivity. }
  rewrite P, <- map_app. set (l := seq 0 n ++ seq 0 (Nat.min (k - 1) n)). assert (LL : length l = n + Nat.min (k - 1) n) by (unfold l; rewrite app_length, !seq_length; reflexivity).
  assert (E : exists t0, stack (map g l) 0 = Ok {| tshape := insert_nth 0 (length l) []; tval := fun p => tval (nth (nth 0 p 0) (map g l) t0) (remove_nth 0 p) |}).
  { unfold stack. destruct l as [|i l'] eqn:EL; [cbn in LL; lia|]. exists (g i). rewrite <- (map_length g). reflexivity. }
  destruct E as [t0 E]. rewrite E. cbn [bind]. eexists. split; [reflexivity|]. cbn [batch channels sizes tshape pixel tval]. split; [reflexivity|]. split; [reflexivity|].
  split; [rewrite LL; reflexivity|]. intros b i c H. change (nth 0 [i] 0) with i. rewrite (nth_indep _ _ (g 0)) by (rewrite map_length, LL; exact H).
  rewrite map_nth. change (tval (g (nth i l 0)) (remove_nth 0 [i]) b c) with (pixel x b [nth i l 0] c). f_equal. f_equal. unfold l. destruct (Nat.ltb_spec i n) as [L|L].
  - rewrite app_nth1 by (rewrite seq_length; exact L). rewrite seq_nth by exact L. rewrite Nat.mod_small by exact L. reflexivity.
  - rewrite app_nth2 by (rewrite seq_length; exact L). rewrite seq_length, seq_nth by lia. cbn [Nat.add]. symmetry.
    replace i with ((i - n) + 1 * n) at 1 by lia. rewrite Nat.mod_add by lia. apply Nat.mod_small. lia.
Qed.

Lemma convolution_shape together same ss ds x w r : convolution together same ss ds x w = Ok r -> batch r = batch x /\ channels r = outputs w.
Proof.
  unfold convolution. repeat match goal with |- context [if ?c then Err _ else _] => destruct c; [discriminate|] end. cbv zeta.
  repeat match goal with |- context [if ?c then Err _ else _] => destruct c; [discriminate|] end. intros H. injection H as <-. split; reflexivity.
Qed.
Lemma call_shape L kernel bias x r : call L kernel bias x = Ok r -> batch r = batch x /\ channels r = filters L.
Proof.
  unfold call, build. destruct (as_sizes (kernel_size L)) as [ks|]; [|discriminate]. cbn [bind]. destruct (as_sizes (strides L)) as [ss|]; [|discriminate]. cbn [bind].
  destruct (as_sizes (dilation_rate L)) as [ds|]; [|discriminate]. cbn [bind]. unfold keras_conv_to_complex_conv.
  destruct (convolution _ _ _ _ (map_image Re x) (map_filter Re _)) as [ac|] eqn:AC; [|discriminate]. cbn [bind].
  apply convolution_shape in AC. do 3 (destruct (convolution _ _ _ _ _ _) as [?|]; [|discriminate]; cbn [bind]). cbn [map_image map_filter batch channels outputs] in AC.
  destruct AC as [B Ch]. cbn [snd]. destruct (use_bias L), (activation L); intros H; injection H as <-; cbn [map_image zip_image batch channels]; split; assumption.
Qed.
Lemma layer_ok k width w x n : sizes x = [n] -> 0 < n -> 0 < k <= n + Nat.min (k - 1) n -> exists y, ring_layer k width w x = Ok y /\ batch y = batch x /\ channels y = width /\ sizes y = [n + Nat.min (k - 1) n - k + 1] /\
  forall b j f, j < n + Nat.min (k - 1) n - k + 1 -> pixel y b [j] f = ring n k (channels x) w (fun i c => pixel x b [i] c) j f.
Proof.
  intros S N K. destruct (wrap_ok k x n S N) as [y [E [B [CH [SY P]]]]]. unfold ring_layer. rewrite E. cbn [bind].
  destruct K as [K0 K]. pose proof (C78_defaults k width false None K0) as D. inversion D as [|? ? ? ? [L [EL [_ HL]]] _]; subst. rewrite EL. cbn [bind].
  destruct (HL w (fun _ => C0) y) as [r [c [EC [SR [IC V]]]]].
  - rewrite SY. reflexivity.
  - rewrite SY. repeat constructor. lia.
  - rewrite EC. cbn [bind]. eexists. split; [reflexivity|]. cbn [map_image batch sizes channels pixel].
    assert (BR : batch r = batch y /\ channels r = width).
    { destruct (call_shape _ _ _ _ _ EC) as [B1 C1']. split; [exact B1|]. rewrite C1'. revert EL. unfold complex_conv_1d, complex_conv_init. cbn [normalize_tuple bind default_strides default_dilation_rate].
      destruct (normalize_padding default_padding); [|discriminate]. cbn [bind]. intros H. injection H as <-. reflexivity. }
    destruct BR as [BR CR]. split; [congruence|]. split; [exact CR|]. split; [rewrite SR, SY; reflexivity|].
    intros b j f J. unfold ring. f_equal. rewrite V by (rewrite SR, SY; repeat constructor; lia).
    destruct IC as [before [AX [_ [_ PC]]]]. rewrite SY in AX. inversion AX as [|? ? ? ? out bf ? ? ? ? outs bfs A1 A2]; subst. inversion A2; subst.
    destruct A1 as [A0 [A1 ->]]. rewrite PC.
    + unfold convolved. cbn [ksizes inputs sum_over repeat]. unfold range. apply Csum_ext. intros t IT. apply in_seq in IT. rewrite CH. apply Csum_ext. intros ch _. cbn [tap]. f_equal.
      cbn [read_position]. unfold value_at. rewrite SY. cbn [within].
      replace (Z.of_nat j * Z.of_nat 1 + Z.of_nat t * Z.of_nat 1 - Z.of_nat 0)%Z with (Z.of_nat (j + t)) by lia.
      destruct (Z.leb_spec 0 (Z.of_nat (j + t))); [|lia]. destruct (Z.ltb_spec (Z.of_nat (j + t)) (Z.of_nat (n + Nat.min (k - 1) n))); [|lia]. cbn [andb map]. rewrite Nat2Z.id. apply P. lia.
    + match goal with H : _ = sizes c |- _ => rewrite <- H end. repeat constructor. lia.
Qed.

Lemma network_ext n k width ws : forall channels x x', 0 < n -> (forall j c, j < n -> c < channels -> x j c = x' j c) -> ring_network n k width channels ws x = ring_network n k width channels ws x'.
Proof.
  induction ws as [|w t IH]; intros ch x x' N H; cbn [ring_network].
  - apply Csum_ext. intros j J. apply in_seq in J. apply Csum_ext. intros c Ic. apply in_seq in Ic. apply H; lia.
  - apply IH; [exact N|]. intros j f _ _. unfold ring. f_equal. apply Csum_ext. intros s _. apply Csum_ext. intros c Ic. apply in_seq in Ic. rewrite H; [reflexivity|apply Nat.mod_upper_bound; lia|lia].
Qed.
Lemma flatten_sum x n b : sizes x = [n] -> Csum (fun v => v) (flatten x b) = Csum (fun j => Csum (fun c => pixel x b [j] c) (seq 0 (channels x))) (seq 0 n).
Proof.
  intros S. unfold flatten. rewrite S. unfold range at 1. cbn [raster]. unfold range. rewrite Csum_flat_map.
  induction (seq 0 n) as [|j l IH]; [reflexivity|]. cbn [map flat_map app]. rewrite !Csum_cons, Csum_map. f_equal. exact IH.
Qed.
Lemma layers_ok k width n ws : 0 < n -> 0 < k <= n + 1 -> forall x, sizes x = [n] -> exists y, ring_layers k width ws x = Ok y /\ batch y = batch x /\ sizes y = [n] /\
  forall b, Csum (fun v => v) (flatten y b) = ring_network n k width (channels x) ws (fun j c => pixel x b [j] c).
Proof.
  intros N K. induction ws as [|w t IH]; intros x S; cbn [ring_layers ring_network].
  - exists x. split; [reflexivity|]. split; [reflexivity|]. split; [exact S|]. intros b. apply flatten_sum, S.
  - destruct (layer_ok k width w x n S N) as [y [E [B [CH [SY P]]]]]; [lia|]. rewrite Nat.min_l in SY, P by lia. replace (n + (k - 1) - k + 1) with n in SY, P by lia. rewrite E. cbn [bind]. destruct (IH y SY) as [z [EZ [BZ [SZ VZ]]]]. exists z. split; [exact EZ|]. split; [congruence|]. split; [exact SZ|].
    intros b. rewrite VZ, CH. apply network_ext; [exact N|]. intros j c J _. apply P, J.
Qed.
Lemma map_nth_seq_rows {B} (rows : list (list Z)) (f : list Z -> B) : map (fun b => f (nth b rows [])) (seq 0 (length rows)) = map f rows.
Proof.
  induction rows as [|r t IH]; [reflexivity|]. cbn [length seq map nth]. f_equal. rewrite <- seq_shift, map_map. exact IH.
Qed.
Lemma predictions_ok n k width ws rows : 0 < n -> 0 < k <= n + 1 -> benchmark_predictions n k width ws rows = Ok (map (log_psi n k width ws) rows).
Proof.
  intros N K. unfold benchmark_predictions. destruct (layers_ok k width n ws N K (spins_image n rows) eq_refl) as [y [E [B [_ V]]]]. rewrite E. cbn [bind]. f_equal.
  rewrite B. cbn [spins_image batch]. unfold range. rewrite (map_ext _ _ (fun b => V b)). cbn [spins_image channels pixel].
  rewrite <- (map_nth_seq_rows rows (log_psi n k width ws)). reflexivity.
Qed.

(** ** Symmetries *)
Lemma nodup_map_in {A B} (f : A -> B) l : (forall a b, In a l -> In b l -> f a = f b -> a = b) -> NoDup l -> NoDup (map f l).
Proof.
  intros H D. induction D as [|a l N D IH]; cbn [map]; constructor.
  - intros I. apply in_map_iff in I. destruct I as [b [E I]]. apply N. rewrite (H a b); [exact I|left; reflexivity|right; exact I|symmetry; exact E].
  - apply IH. intros; apply H; [right..|]; assumption.
Qed.
Lemma network_turn n k width m ws : 0 < n -> forall channels x x', (forall j c, j < n -> c < channels -> x' j c = x ((j + m) mod n) c) ->
  ring_network n k width channels ws x' = ring_network n k width channels ws x.
Proof.
  intros N. induction ws as [|w t IH]; intros ch x x' H; cbn [ring_network].
  - rewrite (Csum_ext _ (fun j => Csum (fun c => x ((j + m) mod n) c) (seq 0 ch)) (seq 0 n)).
    + rewrite <- (Csum_map (fun j => (j + m) mod n) (fun j => Csum (fun c => x j c) (seq 0 ch))). apply Csum_perm.
      apply NoDup_Permutation_bis.
      * apply nodup_map_in; [|apply seq_NoDup]. intros a b A B E. apply in_seq in A, B.
        assert (G : forall a b, a < n -> b < n -> a <= b -> (a + m) mod n = (b + m) mod n -> a = b).
        { clear - N. intros a b A B L E. pose proof (Nat.div_mod (a + m) n). pose proof (Nat.div_mod (b + m) n). rewrite E in *.
          assert (n * ((b + m) / n) - n * ((a + m) / n) = b - a) by lia. assert ((b + m) / n = (a + m) / n) by nia. nia. }
        destruct (Nat.le_ge_cases a b); [apply G|symmetry; apply G]; auto; lia.
      * rewrite map_length. lia.
      * intros y Y. apply in_map_iff in Y. destruct Y as [j [<- _]]. apply in_seq. split; [lia|]. apply Nat.mod_upper_bound. lia.
    + intros j J. apply in_seq in J. apply Csum_ext. intros c Ic. apply in_seq in Ic. apply H; lia.
  - apply IH. intros j f J _. unfold ring. f_equal. apply Csum_ext. intros s _. apply Csum_ext. intros c Ic. apply in_seq in Ic. f_equal.
    rewrite H; [|apply Nat.mod_upper_bound; lia|lia]. rewrite !Nat.add_mod_idemp_l by lia. f_equal. f_equal. lia.
Qed.
Lemma turned_nth m row j : m <= length row -> j < length row -> nth j (turned m row) 0%Z = nth ((j + m) mod length row) row 0%Z.
Proof.
  intros M J. unfold turned. assert (L : length (skipn m row) = length row - m) by apply skipn_length. destruct (Nat.ltb_spec (j + m) (length row)) as [H|H].
  - rewrite app_nth1 by lia. rewrite Nat.mod_small by exact H. assert (T : nth (j + m) row 0%Z = nth (j + m) (firstn m row ++ skipn m row) 0%Z) by (rewrite firstn_skipn; reflexivity).
    rewrite T, app_nth2; rewrite firstn_length_le by lia; [f_equal; lia|lia].
  - rewrite app_nth2 by lia. rewrite L. replace (j + m) with ((j + m - length row) + 1 * length row) by lia. rewrite Nat.mod_add, Nat.mod_small by lia.
    assert (T : nth (j + m - length row) row 0%Z = nth (j + m - length row) (firstn m row ++ skipn m row) 0%Z) by (rewrite firstn_skipn; reflexivity).
    rewrite T, app_nth1 by (rewrite firstn_length_le by lia; lia). f_equal. lia.
Qed.
Lemma turn_psi k width ws row m : row <> [] -> m <= length row -> log_psi (length row) k width ws (turned m row) = log_psi (length row) k width ws row.
Proof.
  intros N M. unfold log_psi. apply network_turn with (m := m); [destruct row; [congruence|cbn; lia]|]. intros j _ J _. rewrite turned_nth by assumption. reflexivity.
Qed.
Lemma lncosh_even z : lncosh (- z) = lncosh z.
Proof.
  unfold lncosh. assert (R : Rabs (Re (- z)%C) = Rabs (Re z)) by (unfold Copp, Re; cbn [fst]; apply Rabs_Ropp). rewrite R.
  set (a := RtoC (Rabs (Re z))). assert (E : (- - z = z)%C) by (destruct z; unfold Copp; cbn [fst snd]; rewrite !Ropp_involutive; reflexivity). rewrite E.
  f_equal. f_equal. unfold Cplus. f_equal; lra.
Qed.
Lemma flip_psi n k width w ws row : 0 < n -> log_psi n k width (w :: ws) (map Z.opp row) = log_psi n k width (w :: ws) row.
Proof.
  intros N. unfold log_psi. cbn [ring_network]. apply network_ext; [exact N|]. intros j f _ _. unfold ring. rewrite <- lncosh_even. f_equal.
  assert (S : forall (A : Type) (g : A -> C) l, (- Csum g l = Csum (fun a => - g a) l)%C).
  { intros A g l. induction l as [|a l IH]; [unfold Csum, Copp, C0; cbn; f_equal; lra|]. rewrite !Csum_cons, <- IH. destruct (g a), (Csum g l). unfold Copp, Cplus. cbn. f_equal; lra. }
  rewrite S. apply Csum_ext. intros t _. rewrite S. apply Csum_ext. intros c _.
  replace 0%Z with (Z.opp 0) by reflexivity. rewrite map_nth. change (- 0)%Z with 0%Z. generalize (w [t] c f) as u. generalize (nth ((j + t) mod n) row 0%Z) as v. intros v [u1 u2].
  rewrite opp_IZR. unfold Copp, Cmult, RtoC. cbn [fst snd]. f_equal; lra.
Qed.

(** ** Kernels longer than the ring *)
Lemma convolution_unfit x w m k : sizes x = [m] -> ksizes w = [k] -> inputs w = channels x -> m < k -> convolution false false [1] [1] x w = Err ValueError.
Proof.
  intros S K I H. unfold convolution. rewrite S, K, I, Nat.eqb_refl. cbn [length Nat.eqb andb negb forallb existsb Nat.ltb Nat.leb orb map2 map].
  destruct (Nat.leb_spec (effective_size k 1) m) as [E|_]; [unfold effective_size in E; lia|]. destruct (channels x =? channels x); reflexivity.
Qed.
Lemma places_ok n k : 0 < k -> k <= n + Nat.min (k - 1) n -> places n k = n + Nat.min (k - 1) n - k + 1.
Proof. intros K F. unfold places. destruct (Nat.leb_spec k (n + 1)); lia. Qed.
Lemma places_pos n k : 0 < n -> 0 < places n k <-> k <= 2 * n.
Proof. intros N. unfold places. destruct (Nat.leb_spec k (n + 1)); lia. Qed.
Lemma places_le n k : places n k <= n.
Proof. unfold places. destruct (Nat.leb_spec k (n + 1)); lia. Qed.
Lemma places_zero k d : places_after 0 k d = 0.
Proof. induction d as [|d IH]; [reflexivity|]. cbn [places_after]. pose proof (places_le 0 k). replace (places 0 k) with 0 by lia. exact IH. Qed.
Lemma shrinking_ext k width ws : forall n channels x x', (forall j c, j < n -> c < channels -> x j c = x' j c) -> (forall w t, ws = w :: t -> 0 < n) -> 
  shrinking_network n k width channels ws x = shrinking_network n k width channels ws x'.
Proof.
  destruct ws as [|w t]; intros n ch x x' H N; cbn [shrinking_network].
  - apply Csum_ext. intros j J. apply in_seq in J. apply Csum_ext. intros c Ic. apply in_seq in Ic. apply H; lia.
  - specialize (N w t eq_refl). assert (G : forall j f, ring n k ch w x j f = ring n k ch w x' j f).
    { intros j f. unfold ring. f_equal. apply Csum_ext. intros s _. apply Csum_ext. intros c Ic. apply in_seq in Ic. rewrite H; [reflexivity|apply Nat.mod_upper_bound; lia|lia]. }
    assert (F : ring n k ch w x = ring n k ch w x') by (apply FunctionalExtensionality.functional_extensionality; intros j; apply FunctionalExtensionality.functional_extensionality; intros f; apply G).
    rewrite F. reflexivity.
Qed.
Lemma layer_unfit n k width w x : sizes x = [n] -> 0 < n -> 2 * n < k -> ring_layer k width w x = Err ValueError.
Proof.
  intros S N K. unfold ring_layer. destruct (wrap_ok k x n S N) as [y [E [_ [CH [SY _]]]]]. rewrite E. cbn [bind].
  unfold complex_conv_1d, complex_conv_init. cbn [normalize_tuple bind default_strides default_dilation_rate]. change (normalize_padding default_padding) with (Ok "valid"%string). cbn [bind].
  unfold call, build. cbn [kernel_size strides dilation_rate repeat as_sizes IsingModel.mapM as_size]. destruct (Z.ltb_spec (Z.of_nat k) 0) as [H|_]; [lia|]. rewrite Nat2Z.id. change (1 <? 0)%Z with false. cbv iota. cbn [bind].
  change (Z.to_nat 1) with 1. unfold keras_conv_to_complex_conv. change (String.eqb _ "same") with false.
  rewrite (convolution_unfit (map_image Re y) _ (n + Nat.min (k - 1) n) k); [reflexivity|exact SY|reflexivity|reflexivity|lia].
Qed.
Lemma any_layers k width ws : 0 < k -> forall n x, 0 < n -> sizes x = [n] ->
  (0 < places_after n k (length ws) -> exists y, ring_layers k width ws x = Ok y /\ batch y = batch x /\
     forall b, Csum (fun v => v) (flatten y b) = shrinking_network n k width (channels x) ws (fun j c => pixel x b [j] c)) /\
  (places_after n k (length ws) = 0 -> ring_layers k width ws x = Err ValueError).
Proof.
  intros K. induction ws as [|w t IH]; intros n x N S; cbn [ring_layers shrinking_network length places_after].
  - split; [|lia]. intros _. exists x. split; [reflexivity|]. split; [reflexivity|]. intros b. apply flatten_sum, S.
  - destruct (Nat.le_gt_cases k (2 * n)) as [F|F].
    + destruct (layer_ok k width w x n S N) as [y [E [B [CH [SY P]]]]]; [lia|]. rewrite <- places_ok in SY, P by lia. rewrite E. cbn [bind].
      assert (N' : 0 < places n k) by (apply places_pos; assumption). destruct (IH (places n k) y N' SY) as [I1 I2]. split; [|exact I2].
      intros H. destruct (I1 H) as [z [EZ [BZ VZ]]]. exists z. split; [exact EZ|]. split; [congruence|].
      intros b. rewrite VZ, CH. apply shrinking_ext; [|intros; exact N']. intros j c J _. apply P, J.
    + replace (places n k) with 0 by (pose proof (places_pos n k N); lia). rewrite places_zero. split; [lia|]. intros _. rewrite (layer_unfit n k width w x S N F). reflexivity.
Qed.
Lemma any_predictions n k width ws rows : 0 < n -> 0 < k ->
  benchmark_predictions n k width ws rows =
    if 0 <? places_after n k (length ws) then Ok (map (fun row => shrinking_network n k width 1 ws (fun j _ => RtoC (IZR (nth j row 0%Z)))) rows) else Err ValueError.
Proof.
  intros N K. unfold benchmark_predictions. destruct (any_layers k width ws K n (spins_image n rows) N eq_refl) as [I1 I2]. destruct (Nat.ltb_spec 0 (places_after n k (length ws))) as [H|H].
  - destruct (I1 H) as [y [E [B V]]]. rewrite E. cbn [bind]. f_equal. rewrite B. cbn [spins_image batch]. unfold range. rewrite (map_ext _ _ (fun b => V b)). cbn [spins_image channels pixel].
    rewrite <- (map_nth_seq_rows rows (fun row => shrinking_network n k width 1 ws (fun j _ => RtoC (IZR (nth j row 0%Z))))). reflexivity.
  - rewrite I2 by lia. reflexivity.
Qed.
Lemma cosh_2_0 : lncosh (RtoC 2) <> lncosh (RtoC 0).
Proof.
  assert (P : (1 < exp 2)%R) by (rewrite <- exp_0; apply exp_increasing; lra).
  assert (X : (exp 2 + exp (-2) > 2)%R) by (replace (-2)%R with (- (2))%R by lra; rewrite exp_Ropp; assert (exp 2 * / exp 2 = 1)%R by (apply Rinv_r; lra); assert (0 < / exp 2)%R by (apply Rinv_0_lt_compat; lra); nra).
  assert (E : forall a, Ccosh (RtoC a) = RtoC ((exp a + exp (- a)) / 2)).
  { intros a. unfold Ccosh, Cscale, Cexp, Copp, Cplus, RtoC, Re, Im. cbn [fst snd]. rewrite Ropp_0, cos_0, sin_0. f_equal; field. }
  intros H. assert (N : forall a, Ccosh (RtoC a) <> C0).
  { intros a. rewrite E. intros Z. apply (f_equal Re) in Z. unfold RtoC, C0, Re in Z. cbn [fst] in Z. pose proof (exp_pos a). pose proof (exp_pos (- a)). lra. }
  pose proof (exp_lncosh _ (N 2%R)) as A. pose proof (exp_lncosh _ (N 0%R)) as B. rewrite H, B, !E in A. apply (f_equal Re) in A. unfold RtoC, Re in A. cbn [fst] in A.
  rewrite Ropp_0, exp_0 in A. replace (- (2))%R with (-2)%R in A by lra. lra.
Qed.
Definition two_taps : list nat -> nat -> nat -> C := fun t _ _ => if nth 0 t 0 <? 2 then RtoC 1 else C0.
Lemma shrinking_not_turned : shrinking_network 3 5 1 1 [two_taps] (fun j _ => RtoC (IZR (nth j [1; 1; -1]%Z 0%Z))) <>
  shrinking_network 3 5 1 1 [two_taps] (fun j _ => RtoC (IZR (nth j (turned 1 [1; 1; -1]%Z) 0%Z))).
Proof.
  cbn [shrinking_network]. change (places 3 5) with 2. unfold ring, two_taps, Csum. cbn [seq fold_right turned skipn firstn app].
  repeat match goal with |- context [?a mod 3] => let v := eval vm_compute in (a mod 3) in change (a mod 3) with v end.
  cbn [nth Nat.ltb Nat.leb]. intros H.
  match type of H with (lncosh ?a + C0 + (lncosh ?b + C0 + C0))%C = (lncosh ?c + C0 + (lncosh ?d + C0 + C0))%C =>
    assert (A : a = RtoC 2) by (unfold Cplus, Cmult, RtoC, C0; cbn [fst snd]; f_equal; lra);
    assert (B : b = RtoC 0) by (unfold Cplus, Cmult, RtoC, C0; cbn [fst snd]; f_equal; lra);
    assert (D : c = RtoC 0) by (unfold Cplus, Cmult, RtoC, C0; cbn [fst snd]; f_equal; lra);
    assert (E : d = RtoC 0) by (unfold Cplus, Cmult, RtoC, C0; cbn [fst snd]; f_equal; lra) end.
  rewrite A, B, ?D, E in H. apply cosh_2_0. destruct (lncosh (RtoC 2)) as [p q], (lncosh (RtoC 0)) as [r s]. unfold Cplus, C0 in H. cbn [fst snd] in H. injection H as H1 H2. f_equal; lra.
Qed.
