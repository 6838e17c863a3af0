(** Lemmas about the TensorBoard callback. *)
From Coq Require Import String List ZArith Lia Arith Bool Ascii.
From Verif Require Import Base OrderingModel OrderingSpec OrderingProofs TensorModel CheckpointModel EncodingProofs TensorboardModel TensorboardSpec.
Import ListNotations.
Local Open Scope nat_scope.

Lemma needed_step n b : 0 < b -> 0 < n -> batches_needed n b = Datatypes.S (batches_needed (n - b) b).
Proof.
  intros B N. unfold batches_needed. destruct (Nat.le_gt_cases b n) as [L|L].
  - replace (n + b - 1) with ((n - b + b - 1) + 1 * b) by lia. rewrite Nat.div_add by lia. lia.
  - replace (n - b) with 0 by lia. rewrite (Nat.div_small (0 + b - 1)) by lia.
    replace (n + b - 1) with ((n - 1) + 1 * b) by lia. rewrite Nat.div_add, Nat.div_small by lia. reflexivity.
Qed.
Lemma needed_zero b : batches_needed 0 b = 0.
Proof. unfold batches_needed. destruct b; [reflexivity|]. apply Nat.div_small. lia. Qed.

Lemma range_S n : range (Datatypes.S n) = 0 :: map Datatypes.S (range n).
Proof. unfold range. cbn [seq]. now rewrite seq_shift. Qed.

Lemma skipn_plus {A} : forall i j (l : list A), skipn (i + j) l = skipn j (skipn i l).
Proof. induction i as [|i IH]; intros j l; [reflexivity|]. destruct l as [|x l]; [now rewrite !skipn_nil|]. cbn [Nat.add skipn]. apply IH. Qed.

Lemma cover {A} b (l : list A) : 0 < b -> forall i,
  concat (map (fun k => firstn b (skipn (i + k * b) l)) (range (batches_needed (length l - i) b))) = skipn i l.
Proof.
  intros B. intros i. remember (length l - i) as m eqn:M. revert i M. induction m as [m IH] using lt_wf_ind. intros i M.
  destruct m as [|m]; [rewrite needed_zero; cbn; symmetry; apply skipn_all2; lia|].
  rewrite (needed_step (Datatypes.S m)) by lia. rewrite range_S. cbn [map concat]. rewrite map_map.
  rewrite (map_ext _ (fun k => firstn b (skipn (i + b + k * b) l))) by (intros k; f_equal; f_equal; lia).
  replace (Datatypes.S m - b) with (length l - (i + b)) by lia. rewrite (IH (length l - (i + b))) by lia.
  rewrite Nat.mul_0_l, Nat.add_0_r, (skipn_plus i b). apply firstn_skipn.
Qed.

Definition all_rows {V} (n : nat) (data : list (entry V)) : Prop := Forall (fun e => exists l, e = Rows l /\ length l = n) data.

Lemma map_slice {V} (data : list (entry V)) n i j : all_rows n data ->
  map_res (slice_entry i j) data = Ok (map (fun e => Rows (slice (rows_of e) i j)) data).
Proof.
  induction 1 as [|e data [l [-> L]] _ IH]; [reflexivity|]. cbn [map_res slice_entry bind]. rewrite IH. reflexivity.
Qed.

Lemma slice_clamp {A} (l : list A) i b : slice l i (i + Nat.min b (length l - i)) = firstn b (skipn i l).
Proof.
  unfold slice. replace (i + Nat.min b (length l - i) - i) with (Nat.min b (length l - i)) by lia.
  rewrite <- (skipn_length i l), <- firstn_firstn. now rewrite firstn_all.
Qed.

Definition batch_number {V} (data : list (entry V)) (b i k : nat) : list (entry V) :=
  map (fun e => Rows (firstn b (skipn (i + k * b) (rows_of e)))) data.

Lemma feed_loop_rows {V} b n (data : list (entry V)) : 0 < b -> all_rows n data -> forall fuel i, n - i < fuel ->
  feed_loop fuel b n i false data = Some (Ok (map (batch_number data b i) (range (batches_needed (n - i) b)))).
Proof.
  intros B H. induction fuel as [|fuel IH]; intros i F; [lia|]. cbn [feed_loop]. destruct (Nat.ltb_spec i n) as [L|L].
  - cbn [batch_val]. rewrite (map_slice _ n) by exact H. rewrite IH by lia. cbn [bind].
    rewrite (needed_step (n - i)) by lia. rewrite range_S. cbn [map]. rewrite map_map. do 3 f_equal.
    + unfold batch_number. apply map_ext_in. intros e He. unfold all_rows in H. rewrite Forall_forall in H. destruct (H e He) as [l [-> E]].
      cbn [rows_of]. rewrite Nat.mul_0_l, Nat.add_0_r, <- E, slice_clamp. reflexivity.
    + replace (n - i - b) with (n - (i + b)) by lia. apply map_ext. intros k. unfold batch_number. apply map_ext. intros e.
      do 3 f_equal. lia.
  - replace (n - i) with 0 by lia. rewrite needed_zero. reflexivity.
Qed.

Lemma feed_loop_phase {V} b n (data : list (entry V)) x : 0 < b -> all_rows n data -> forall fuel i, n - i < fuel ->
  feed_loop fuel b n i true (data ++ [x]) = Some (Ok (map (fun k => batch_number data b i k ++ [x]) (range (batches_needed (n - i) b)))).
Proof.
  intros B H. induction fuel as [|fuel IH]; intros i F; [lia|]. cbn [feed_loop]. destruct (Nat.ltb_spec i n) as [L|L].
  - unfold batch_val. rewrite removelast_last, (map_slice _ n) by exact H. cbn [bind]. rewrite IH by lia.
    destruct (data ++ [x]) as [|y t] eqn:E; [now destruct data|]. rewrite <- E, last_last. cbn [bind].
    rewrite (needed_step (n - i)) by lia. rewrite range_S. cbn [map]. rewrite map_map. do 3 f_equal.
    + f_equal. unfold batch_number. apply map_ext_in. intros e He. unfold all_rows in H. rewrite Forall_forall in H. destruct (H e He) as [l [-> E']].
      cbn [rows_of]. rewrite Nat.mul_0_l, Nat.add_0_r, <- E', slice_clamp. reflexivity.
    + replace (n - i - b) with (n - (i + b)) by lia. apply map_ext. intros k. f_equal. unfold batch_number. apply map_ext. intros e.
      do 3 f_equal. lia.
  - replace (n - i) with 0 by lia. rewrite needed_zero. reflexivity.
Qed.

Lemma feed_loop_stuck {V} n i (data : list (entry V)) : i < n -> all_rows n data -> forall fuel, feed_loop fuel 0 n i false data = None.
Proof.
  intros L H. induction fuel as [|fuel IH]; [reflexivity|]. cbn [feed_loop]. destruct (Nat.ltb_spec i n); [|lia].
  cbn [batch_val]. rewrite (map_slice _ n) by exact H. rewrite Nat.add_0_r, IH. reflexivity.
Qed.

Lemma assign_step {V} (g : V -> V) (data variable : list V) i step : length variable = length data -> i + step <= length data ->
  variable = map g (firstn i data) ++ skipn i variable ->
  assign_rows variable i (map g (slice data i (i + step))) = map g (firstn (i + step) data) ++ skipn (i + step) variable.
Proof.
  intros L Hs E. unfold assign_rows.
  assert (Ls : length (slice data i (i + step)) = step). { unfold slice. rewrite firstn_length, skipn_length. lia. }
  rewrite map_length, Ls.
  assert (F : firstn i variable = map g (firstn i data)).
  { rewrite E. rewrite firstn_app, map_length, firstn_length_le by lia. rewrite Nat.sub_diag. cbn [firstn]. rewrite app_nil_r.
    apply firstn_all2. rewrite map_length, firstn_length_le; lia. }
  rewrite F, app_assoc, <- map_app. do 2 f_equal. unfold slice. replace (i + step - i) with step by lia.
  rewrite <- (firstn_skipn i data) at 3. rewrite firstn_app, firstn_length_le by lia. rewrite (firstn_all2 (firstn i data)) by (rewrite firstn_length_le; lia).
  f_equal. f_equal. lia.
Qed.

Lemma embedding_rows {V} (g : V -> V) output b (data : list V) : 0 < b -> (forall l, output l = map g l) -> forall fuel i variable,
  length data - i < fuel -> length variable = length data -> variable = map g (firstn i data) ++ skipn i variable ->
  embedding_loop fuel b i output data variable = Some (map g data, batches_needed (length data - i) b).
Proof.
  intros B O. induction fuel as [|fuel IH]; intros i variable F L E; [lia|]. cbn [embedding_loop]. destruct (Nat.ltb_spec i (length data)) as [Li|Li].
  - set (step := Nat.min b (length data - i)). rewrite O.
    rewrite (assign_step g data variable i step) by (unfold step; auto; lia).
    assert (Q : map g (firstn (i + step) data) ++ skipn (i + step) variable = map g (firstn (i + b) data) ++ skipn (i + b) variable).
    { unfold step. destruct (Nat.le_gt_cases b (length data - i)) as [Hb|Hb]; [now rewrite Nat.min_l|].
      rewrite Nat.min_r by lia. rewrite !(firstn_all2 data), !(skipn_all2 variable) by lia. reflexivity. }
    rewrite Q. rewrite IH.
    + rewrite (needed_step (length data - i)) by lia. do 3 f_equal. f_equal. lia.
    + lia.
    + rewrite app_length, map_length, firstn_length, skipn_length. lia.
    + rewrite skipn_app, map_length, firstn_length.
      destruct (Nat.le_gt_cases (i + b) (length data)) as [H|H].
      * rewrite Nat.min_l by lia. rewrite Nat.sub_diag. cbn [skipn]. rewrite (skipn_all2 (map g (firstn (i + b) data))) by (rewrite map_length, firstn_length_le; lia). reflexivity.
      * rewrite Nat.min_r by lia. rewrite (skipn_all2 variable) by lia. rewrite skipn_nil. rewrite (skipn_all2 (map g _)) by (rewrite map_length, firstn_length; lia). reflexivity.
  - assert (E' : variable = map g data). { rewrite E. rewrite (firstn_all2 data), (skipn_all2 variable), app_nil_r by lia. reflexivity. }
    replace (length data - i) with 0 by lia. now rewrite needed_zero, E'.
Qed.

(** Images. *)
Lemma without_units_in shape : forall l, in_shape shape l ->
  in_shape (squeezed shape) (without_units shape l) /\ row_major (squeezed shape) (without_units shape l) = row_major shape l.
Proof.
  assert (V : forall shape, volume (squeezed shape) = volume shape).
  { induction shape0 as [|n sh IH]; [reflexivity|]. cbn [squeezed filter]. fold (squeezed sh). destruct (Nat.eqb_spec n 1) as [->|N]; cbn [negb volume fold_right];
    unfold volume in IH; rewrite IH; lia. }
  induction shape as [|n sh IH]; intros l I; inversion I as [|i ? t ? Hi T]; subst; [split; [constructor|reflexivity]|].
  destruct (IH t T) as [A B]. cbn [squeezed filter without_units]. fold (squeezed sh).
  destruct (Nat.eqb_spec n 1) as [->|N]; cbn [negb].
  - split; [exact A|]. cbn [row_major]. rewrite B. replace i with 0 by lia. lia.
  - split; [constructor; auto|]. cbn [row_major]. rewrite B, V. reflexivity.
Qed.

Lemma squeeze_value {V} (t : tensor V) l : in_shape (tshape t) l -> tval (squeeze t) (without_units (tshape t) l) = tval t l.
Proof. intros I. destruct (without_units_in _ _ I) as [A B]. unfold squeeze. apply reshape_value; auto. Qed.

Lemma image_drawn {V} channels_last (w : tensor V) :
  match length (dims (tshape w)) with
  | 1 | 2 | 3 => exists img, weight_image channels_last w = Ok (Some img) /\ tshape img = drawn_shape channels_last (dims (tshape w)) /\
      forall l, in_shape (tshape w) l -> tval img (pixel channels_last (dims (tshape w)) (without_units (tshape w) l)) = tval w l
  | _ => weight_image channels_last w = Ok None
  end.
Proof.
  change (dims (tshape w)) with (squeezed (tshape w)).
  pose proof (fun l H => squeeze_value w l H) as SV. pose proof (fun l H => proj1 (without_units_in (tshape w) l H)) as SI.
  unfold weight_image. change (tshape (squeeze w)) with (squeezed (tshape w)).
  set (sq := squeeze w) in *. assert (ES : tshape sq = squeezed (tshape w)) by reflexivity.
  destruct (squeezed (tshape w)) as [|a [|b [|c [|d ?]]]] eqn:E; cbn [length]; try reflexivity.
  - eexists. cbn [bind reshape tshape length last existsb Nat.eqb andb orb]. split; [reflexivity|]. split; [reflexivity|]. intros l Hl. specialize (SI l Hl).
    rewrite <- (SV l Hl). inversion SI as [|i ? t ? Hi T]; subst. inversion T; subst. cbn [pixel].
    apply (reshape_value sq [1; a; 1; 1] [0; i; 0; 0] [i]).
    + repeat constructor. exact Hi.
    + rewrite ES. now repeat constructor.
    + rewrite ES. cbn. lia.
  - destruct (Nat.ltb_spec b a) as [L|L].
    + exists (reshape [1; b; a; 1] (transpose_2 sq)). cbn [transpose_2 tshape]. rewrite ES. cbn [bind nth tshape reshape length last existsb Nat.eqb andb orb]. split; [reflexivity|].
      split; [cbn [drawn_shape]; now rewrite Nat.min_r, Nat.max_l by lia|]. intros l Hl. specialize (SI l Hl). rewrite <- (SV l Hl).
      inversion SI as [|i ? t ? Hi T]; subst. inversion T as [|j ? t' ? Hj T']; subst. inversion T'; subst. cbn [pixel].
      destruct (Nat.leb_spec a b); [lia|].
      rewrite (reshape_value (transpose_2 sq) _ [0; j; i; 0] [j; i]); [reflexivity| | |].
      * repeat constructor; auto.
      * cbn [transpose_2 tshape]. rewrite ES. now repeat constructor.
      * cbn [transpose_2 tshape]. rewrite ES. cbn. lia.
    + exists (reshape [1; a; b; 1] sq). rewrite ES. cbn [bind nth tshape reshape length last existsb Nat.eqb andb orb]. split; [reflexivity|].
      split; [cbn [drawn_shape tshape]; now rewrite Nat.min_l, Nat.max_r by lia|]. intros l Hl. specialize (SI l Hl). rewrite <- (SV l Hl).
      inversion SI as [|i ? t ? Hi T]; subst. inversion T as [|j ? t' ? Hj T']; subst. inversion T'; subst. cbn [pixel].
      destruct (Nat.leb_spec a b); [|lia].
      apply (reshape_value sq _ [0; i; j; 0] [i; j]).
      * repeat constructor; auto.
      * rewrite ES. now repeat constructor.
      * rewrite ES. cbn. lia.
  - destruct channels_last.
    + exists (reshape [c; a; b; 1] (transpose_201 sq)). cbn [transpose_201 tshape]. rewrite ES. cbn [bind nth tshape reshape length last existsb Nat.eqb andb orb]. split; [reflexivity|].
      split; [reflexivity|]. intros l Hl. specialize (SI l Hl). rewrite <- (SV l Hl).
      inversion SI as [|i ? t ? Hi T]; subst. inversion T as [|j ? t' ? Hj T']; subst. inversion T' as [|k ? t'' ? Hk T'']; subst. inversion T''; subst. cbn [pixel].
      rewrite (reshape_value (transpose_201 sq) _ [k; i; j; 0] [k; i; j]); [reflexivity| | |].
      * repeat constructor; auto.
      * cbn [transpose_201 tshape]. rewrite ES. now repeat constructor.
      * cbn [transpose_201 tshape]. rewrite ES. cbn. lia.
    + exists (reshape [a; b; c; 1] sq). rewrite ES. cbn [bind nth tshape reshape length last existsb Nat.eqb andb orb]. split; [reflexivity|].
      split; [reflexivity|]. intros l Hl. specialize (SI l Hl). rewrite <- (SV l Hl).
      inversion SI as [|i ? t ? Hi T]; subst. inversion T as [|j ? t' ? Hj T']; subst. inversion T' as [|k ? t'' ? Hk T'']; subst. inversion T''; subst. cbn [pixel].
      apply (reshape_value sq _ [i; j; k; 0] [i; j; k]).
      * repeat constructor; auto.
      * rewrite ES. now repeat constructor.
      * rewrite ES. cbn. lia.
Qed.

Lemma image_ok {V} channels_last (w : tensor V) : exists img, weight_image channels_last w = Ok img /\
  (img = None <-> ~ 1 <= length (dims (tshape w)) <= 3) /\ (forall t, img = Some t -> tshape t = drawn_shape channels_last (dims (tshape w))).
Proof.
  pose proof (image_drawn channels_last w) as H.
  destruct (length (dims (tshape w))) as [|[|[|[|n]]]]; try (exists None; split; [exact H|split; [split; [lia|reflexivity]|discriminate]]).
  all: destruct H as [img [-> [S _]]]; exists (Some img); split; [reflexivity|split; [split; [discriminate|lia]|now intros t [= <-]]].
Qed.

(** The summaries of a weight when nothing fails. *)
Definition drawable (w : weight) : bool := (1 <=? length (dims (weight_shape w))) && (length (dims (weight_shape w)) <=? 3).
Definition gradient_summary (o : options) (gradients : weight -> res (list (list nat))) (w : weight) : res (list summary) :=
  if write_grads o && weight_trainable w then
    do shapes <- gradients w;
    if packed shapes then Ok [Histogram (mapped_name (weight_name w) ++ "_grad") (GradientValues shapes)] else Err ValueError
  else Ok [].
Lemma weight_summaries_eq o cl gradients w : weight_summaries o cl gradients w =
  do grads <- gradient_summary o gradients w;
  Ok ([Histogram (mapped_name (weight_name w)) (WeightValues w)] ++ grads ++
      (if write_images o && drawable w then [Image (mapped_name (weight_name w)) w (drawn_shape cl (dims (weight_shape w)))] else [])).
Proof.
  unfold weight_summaries. fold (gradient_summary o gradients w). destruct (gradient_summary o gradients w) as [g|e]; [|reflexivity]. cbn [bind].
  destruct (write_images o); [|reflexivity].
  destruct (image_ok cl {| tshape := weight_shape w; tval := fun l : loc => l |}) as [img [-> [N S]]]. cbn [bind tshape] in *.
  destruct img as [t|]; cbn [bind].
  - rewrite (S t eq_refl). replace (drawable w) with true; [reflexivity|]. symmetry. unfold drawable. apply andb_true_intro.
    destruct (Nat.leb_spec 1 (length (dims (weight_shape w)))), (Nat.leb_spec (length (dims (weight_shape w))) 3); auto; exfalso; enough (Some t = None) by discriminate; apply N; lia.
  - replace (drawable w) with false; [reflexivity|]. symmetry. unfold drawable.
    pose proof (proj1 N eq_refl). destruct (Nat.leb_spec 1 (length (dims (weight_shape w)))), (Nat.leb_spec (length (dims (weight_shape w))) 3); auto. lia.
Qed.

Lemma concat_res_ok {A} (l : list (res (list A))) xs : concat_res l = Ok xs -> exists ys, l = map Ok ys /\ xs = concat ys.
Proof.
  revert xs. induction l as [|r l IH]; intros xs H; cbn [concat_res] in H; [injection H as <-; now exists []|].
  destruct r as [x|]; [|discriminate]. cbn [bind] in H. destruct (concat_res l) as [t|]; [|discriminate]. injection H as <-.
  destruct (IH t eq_refl) as [ys [-> ->]]. now exists (x :: ys).
Qed.
Lemma concat_res_app {A} (l1 l2 : list (res (list A))) : concat_res (l1 ++ l2) = do a <- concat_res l1; do b <- concat_res l2; Ok (a ++ b).
Proof.
  induction l1 as [|r l1 IH]; cbn [concat_res app bind]; [now destruct (concat_res l2)|]. destruct r as [x|]; [|reflexivity]. cbn [bind]. rewrite IH.
  destruct (concat_res l1) as [a|]; [|reflexivity]. cbn [bind]. destruct (concat_res l2); [|reflexivity]. cbn [bind]. now rewrite app_assoc.
Qed.

Lemma flat_map_concat {A B} (f : A -> list B) (ls : list (list A)) : flat_map f (concat ls) = concat (map (flat_map f) ls).
Proof. induction ls as [|l ls IH]; [reflexivity|]. cbn [concat map]. now rewrite flat_map_app, IH. Qed.

(** What set_model adds. *)
Definition layer_pieces o cl gradients (l : layer) : list (res (list summary)) :=
  map (weight_summaries o cl gradients) (layer_weights l) ++ [Ok (output_summaries o l)].
Definition added o cl gradients (layers : list layer) : res (list summary) := concat_res (flat_map (layer_pieces o cl gradients) layers).

Lemma set_model_first o cl gradients layers collection : histogram_freq o <> 0 ->
  set_model o cl gradients layers collection None =
  do a <- added o cl gradients layers; Ok (collection ++ a, match collection ++ a with [] => None | _ => Some (collection ++ a) end).
Proof. intros H. unfold set_model. destruct (Nat.eqb_spec (histogram_freq o) 0); [contradiction|]. reflexivity. Qed.

Lemma added_cons o cl gradients l layers : added o cl gradients (l :: layers) =
  do a <- concat_res (layer_pieces o cl gradients l); do b <- added o cl gradients layers; Ok (a ++ b).
Proof. unfold added. cbn [flat_map]. apply concat_res_app. Qed.

(** Projections of the pieces of a layer. *)
Lemma weight_pieces o cl gradients ws xs : concat_res (map (weight_summaries o cl gradients) ws) = Ok xs ->
  weights_in xs = ws /\ outputs_in xs = [] /\
  images_in xs = (if write_images o then map (fun w => (w, drawn_shape cl (dims (weight_shape w)))) (filter drawable ws) else []) /\
  (exists gs, Forall2 (fun w g => exists shapes, gradients w = Ok shapes /\ packed shapes = true /\ g = (append (mapped_name (weight_name w)) "_grad", shapes))
             (if write_grads o then filter weight_trainable ws else []) gs /\ gradients_in xs = gs).
Proof.
  revert xs. induction ws as [|w ws IH]; intros xs H; cbn [map concat_res] in H.
  - injection H as <-. cbn. destruct (write_images o), (write_grads o); repeat split; exists []; repeat constructor.
  - rewrite weight_summaries_eq in H. destruct (gradient_summary o gradients w) as [g|] eqn:G; [|discriminate]. cbn [bind] in H.
    destruct (concat_res (map (weight_summaries o cl gradients) ws)) as [t|]; [|discriminate]. cbn [bind] in H. injection H as <-.
    destruct (IH t eq_refl) as [W [O [Im [gs [F Gs]]]]]. clear IH.
    assert (Gw : weights_in g = [] /\ outputs_in g = [] /\ images_in g = [] /\
                 Forall2 (fun w g => exists shapes, gradients w = Ok shapes /\ packed shapes = true /\ g = (append (mapped_name (weight_name w)) "_grad", shapes))
                   (if write_grads o && weight_trainable w then [w] else []) (gradients_in g)).
    { unfold gradient_summary in G. destruct (write_grads o && weight_trainable w).
      - destruct (gradients w) as [shapes|] eqn:E; [|discriminate]. cbn [bind] in G. destruct (packed shapes) eqn:P; [|discriminate]. injection G as <-.
        repeat split. cbn. constructor; [|constructor]. exists shapes. auto.
      - injection G as <-. repeat split. constructor. }
    destruct Gw as [Gw [Go [Gi Gg]]].
    set (im := if write_images o && drawable w then _ else _).
    assert (Imw : weights_in im = [] /\ outputs_in im = [] /\ gradients_in im = [] /\
                  images_in im = if write_images o && drawable w then [(w, drawn_shape cl (dims (weight_shape w)))] else []).
    { unfold im. destruct (write_images o && drawable w); repeat split. }
    destruct Imw as [Iw [Io [Ig Ii]]].
    unfold weights_in, outputs_in, images_in, gradients_in in *. cbn [flat_map app]. rewrite !flat_map_app, Gw, Go, Gi, Iw, Io, Ig, Ii, W, O, Im, Gs. cbn [app].
    split; [reflexivity|]. split; [reflexivity|]. split.
    + destruct (write_images o); [|reflexivity]. cbn [andb filter]. destruct (drawable w); reflexivity.
    + exists (gradients_in g ++ gs). split; [|now rewrite app_nil_r].
      destruct (write_grads o); cbn [andb filter] in *.
      * destruct (weight_trainable w); [apply (Forall2_app Gg F)|].
        replace (gradients_in g) with (@nil (string * list (list nat))) by (unfold gradients_in; inversion Gg; reflexivity). exact F.
      * replace (gradients_in g) with (@nil (string * list (list nat))) by (unfold gradients_in; inversion Gg; reflexivity). exact F.
Qed.

Lemma map_fst_combine {A B} : forall (l1 : list A) (l2 : list B), length l1 = length l2 -> map fst (combine l1 l2) = l1.
Proof. induction l1 as [|a l1 IH]; intros [|b l2] H; try discriminate; [reflexivity|]. cbn [combine map fst]. now rewrite IH by (cbn in H; lia). Qed.
Lemma map_snd_combine {A B} : forall (l1 : list A) (l2 : list B), length l1 = length l2 -> map snd (combine l1 l2) = l2.
Proof. induction l1 as [|a l1 IH]; intros [|b l2] H; try discriminate; [reflexivity|]. cbn [combine map snd]. now rewrite IH by (cbn in H; lia). Qed.

Lemma outputs_of_layer o l : outputs_in (output_summaries o l) =
    (if write_output o then map (pair (layer_name l))
       (match layer_output l with
        | NoOutput => []
        | OneOutput c => if c then [] else [0]
        | ManyOutputs cs => filter (fun i => negb (nth i cs true)) (range (length cs))
        end) else []) /\
  weights_in (output_summaries o l) = [] /\ images_in (output_summaries o l) = [] /\ gradients_in (output_summaries o l) = [].
Proof.
  unfold output_summaries. destruct (write_output o); [|repeat split]. cbn [negb]. destruct (layer_output l) as [|c|cs]; [repeat split|destruct c; repeat split|].
  enough (G : forall (f : nat -> bool) ics, (forall i c, In (i, c) ics -> negb c = f i) ->
    let s := flat_map (fun ic => if snd ic : bool then [] else
       [Histogram (layer_name l ++ "_out_" ++ decimal (fst ic) (fst ic)) (OutputValues (layer_name l) (fst ic))]) ics in
    outputs_in s = map (pair (layer_name l)) (filter f (map fst ics)) /\ weights_in s = [] /\ images_in s = [] /\ gradients_in s = []).
  { specialize (G (fun i => negb (nth i cs true)) (combine (range (length cs)) cs)). cbn zeta in G.
    rewrite (map_fst_combine (range (length cs)) cs) in G by (unfold range; now rewrite seq_length).
    apply G. intros i c Hin. apply In_nth_error in Hin. destruct Hin as [k Hk].
    assert (E : nth_error (map fst (combine (range (length cs)) cs)) k = Some i) by (rewrite nth_error_map, Hk; reflexivity).
    assert (E2 : nth_error (map snd (combine (range (length cs)) cs)) k = Some c) by (rewrite nth_error_map, Hk; reflexivity).
    rewrite map_fst_combine in E by (unfold range; now rewrite seq_length). rewrite map_snd_combine in E2 by (unfold range; now rewrite seq_length).
    assert (K : k < length cs) by (apply nth_error_Some; congruence).
    rewrite (nth_error_nth' _ 0) in E by (unfold range; now rewrite seq_length). unfold range in E. rewrite seq_nth in E by exact K. injection E as <-.
    cbn [Nat.add]. f_equal. symmetry. apply nth_error_nth. exact E2. }
  intros f ics. induction ics as [|[i c] ics IH]; intros H; [repeat split|]. cbn zeta. cbn [flat_map fst snd map filter].
  destruct (IH (fun i c Hi => H i c (or_intror Hi))) as [A [B [D E]]]. rewrite <- (H i c (or_introl eq_refl)).
  destruct c; cbn [negb app]; [auto|]. unfold outputs_in, weights_in, images_in, gradients_in in *. cbn [flat_map app map]. rewrite A, B, D, E. auto.
Qed.

Lemma added_spec o cl gradients layers xs : added o cl gradients layers = Ok xs ->
  weights_in xs = flat_map layer_weights layers /\
  images_in xs = (if write_images o then map (fun w => (w, drawn_shape cl (dims (weight_shape w)))) (filter drawable (flat_map layer_weights layers)) else []) /\
  Forall2 (fun w g => exists shapes, gradients w = Ok shapes /\ packed shapes = true /\ g = (append (mapped_name (weight_name w)) "_grad", shapes))
          (if write_grads o then filter weight_trainable (flat_map layer_weights layers) else []) (gradients_in xs) /\
  forall n i, In (n, i) (outputs_in xs) <-> write_output o = true /\ exists l, In l layers /\ layer_name l = n /\ output_is l i false.
Proof.
  revert xs. induction layers as [|l layers IH]; intros xs H.
  - injection H as <-. cbn. destruct (write_images o), (write_grads o); (split; [reflexivity|]; split; [reflexivity|]; split; [constructor|]);
    intros n i; (split; [contradiction|intros [_ [l [[] _]]]]).
  - rewrite added_cons in H. unfold layer_pieces in H. rewrite concat_res_app in H.
    destruct (concat_res (map (weight_summaries o cl gradients) (layer_weights l))) as [a|] eqn:A; [|discriminate]. cbn [bind concat_res] in H.
    destruct (added o cl gradients layers) as [b|]; [|discriminate]. cbn [bind] in H. injection H as <-. rewrite app_nil_r.
    destruct (IH b eq_refl) as [W [Im [G O]]]. destruct (weight_pieces _ _ _ _ _ A) as [Wa [Oa [Ia [gs [Ga E]]]]]. subst gs.
    destruct (outputs_of_layer o l) as [Ol [Wl [Il Gl]]].
    unfold weights_in, images_in, gradients_in in *. rewrite !flat_map_app, Wa, Wl, W, Ia, Il, Im, Gl. cbn [flat_map]. rewrite !app_nil_r.
    split; [reflexivity|]. split; [|split].
    + destruct (write_images o); [|reflexivity]. now rewrite filter_app, map_app.
    + destruct (write_grads o); [rewrite filter_app; exact (Forall2_app Ga G)|exact (Forall2_app Ga G)].
    + intros n i. unfold outputs_in in *. rewrite !flat_map_app, Oa, Ol. cbn [app]. rewrite in_app_iff, O. unfold output_is.
      assert (Q : In (n, i) (if write_output o then map (pair (layer_name l))
           match layer_output l with
           | NoOutput => [] | OneOutput c => if c then [] else [0] | ManyOutputs cs => filter (fun i => negb (nth i cs true)) (range (length cs)) end else [])
         <-> write_output o = true /\ layer_name l = n /\ output_is l i false).
      { destruct (write_output o); [|split; [contradiction|intros [D _]; discriminate]].
        rewrite in_map_iff. unfold output_is. split.
        - intros [i' [E Hi]]. injection E as <- <-. split; [reflexivity|]. split; [reflexivity|].
          destruct (layer_output l) as [|c|cs]; [contradiction|destruct c; [contradiction|destruct Hi as [<-|[]]; auto]|].
          apply filter_In in Hi. destruct Hi as [Hi N]. apply in_seq in Hi. rewrite (nth_error_nth' cs true) by lia. destruct (nth i' cs true); [discriminate|reflexivity].
        - intros [_ [<- Hi]]. exists i. split; [reflexivity|]. destruct (layer_output l) as [|c|cs]; [contradiction|destruct Hi as [-> ->]; now left|].
          apply filter_In. split; [apply in_seq; enough (i < length cs) by lia; apply nth_error_Some; congruence|]. now rewrite (nth_error_nth _ _ true Hi). }
      rewrite Q. split.
      * intros [[Hw [Hn Ho]]|[Hw [l' [Hl' R]]]]; (split; [exact Hw|]); [exists l|exists l']; (split; [|auto]); [now left|now right].
      * intros [Hw [l' [[<-|Hl'] R]]]; [left; tauto|right; split; [exact Hw|]; now exists l'].
Qed.

Lemma concat_res_err {A} (l1 l2 : list (res (list A))) e : Forall (fun r => exists x, r = Ok x \/ r = Err e) l1 -> concat_res (l1 ++ Err e :: l2) = Err e.
Proof.
  induction 1 as [|r l1 [x [->| ->]] _ IH]; cbn [app concat_res bind]; [reflexivity| |reflexivity]. now rewrite IH.
Qed.

Lemma packed_false shapes s1 s2 : In s1 shapes -> In s2 shapes -> s1 <> s2 -> packed shapes = false.
Proof.
  destruct shapes as [|s shapes]; [contradiction|]. intros H1 H2 N. cbn [packed]. destruct (forallb _ _) eqn:E; [|reflexivity]. exfalso. apply N.
  assert (P : forall t, In t (s :: shapes) -> t = s).
  { intros t [<-|Ht]; [reflexivity|]. rewrite forallb_forall in E. specialize (E t Ht). destruct (list_eq_dec Nat.eq_dec s t); congruence. }
  now rewrite (P s1 H1), (P s2 H2).
Qed.

Lemma added_conflict o cl shapes layers l w s1 s2 : write_grads o = true -> In l layers -> In w (layer_weights l) -> weight_trainable w = true ->
  In s1 shapes -> In s2 shapes -> s1 <> s2 -> added o cl (fun _ => Ok shapes) layers = Err ValueError.
Proof.
  intros G Hl Hw T H1 H2 N. pose proof (packed_false _ _ _ H1 H2 N) as P. unfold added.
  apply List.in_split in Hl. destruct Hl as [a [b ->]]. apply List.in_split in Hw. destruct Hw as [c [d Hw]].
  assert (E : flat_map (layer_pieces o cl (fun _ => Ok shapes)) (a ++ l :: b) =
              (flat_map (layer_pieces o cl (fun _ => Ok shapes)) a ++ map (weight_summaries o cl (fun _ => Ok shapes)) c) ++
              Err ValueError :: (map (weight_summaries o cl (fun _ => Ok shapes)) d ++ [Ok (output_summaries o l)] ++ flat_map (layer_pieces o cl (fun _ => Ok shapes)) b)).
  { rewrite flat_map_app. cbn [flat_map]. unfold layer_pieces at 2. rewrite Hw, map_app. cbn [map]. rewrite (weight_summaries_eq o cl _ w). unfold gradient_summary.
    rewrite G, T. cbn [andb bind]. rewrite P. cbn [bind]. rewrite <- !app_assoc. reflexivity. }
  rewrite E. apply concat_res_err. apply Forall_app.
  assert (WS : forall w, exists x, weight_summaries o cl (fun _ => Ok shapes) w = Ok x \/ weight_summaries o cl (fun _ => Ok shapes) w = Err ValueError).
  { intros w0. rewrite weight_summaries_eq. unfold gradient_summary. destruct (write_grads o && weight_trainable w0); cbn [bind].
    - rewrite P. cbn [bind]. exists []. now right.
    - eexists. now left. }
  split.
  - apply Forall_forall. intros r Hr. apply in_flat_map in Hr. destruct Hr as [l' [_ Hr]]. unfold layer_pieces in Hr. apply in_app_or in Hr. destruct Hr as [Hr|[<-|[]]].
    + apply in_map_iff in Hr. destruct Hr as [w' [<- _]]. apply WS.
    + eexists. now left.
  - apply Forall_forall. intros r Hr. apply in_map_iff in Hr. destruct Hr as [w' [<- _]]. apply WS.
Qed.

(** Logs. *)
Lemma wanted_existsb {V} (name : string) (v : log_value V) : existsb (String.eqb name) ["batch"; "size"]%string = negb (wanted (name, v)).
Proof. unfold wanted. cbn [existsb fst]. rewrite orb_false_r, negb_andb, !negb_involutive. reflexivity. Qed.

Lemma simple_value_one {V} (v : log_value V) x : simple_value v = Ok x <-> one_real v x.
Proof.
  unfold one_real. destruct v as [y|y|[|y [|z l]]|[|y [|z l]]]; cbn [simple_value]; split;
    try (intros E; injection E as <-; auto); try discriminate; intros [E|E]; try discriminate; injection E as <-; reflexivity.
Qed.

Lemma write_logs_app {V} (l1 l2 : list (string * log_value V)) index es : write_logs l1 index = (es, None) ->
  write_logs (l1 ++ l2) index = (es ++ fst (write_logs l2 index), snd (write_logs l2 index)).
Proof.
  revert es. induction l1 as [|[n v] l1 IH]; intros es H; cbn [write_logs app] in *.
  - injection H as <-. now destruct (write_logs l2 index).
  - destruct (existsb _ _); [now apply IH|]. destruct (simple_value v) as [x|]; [|discriminate]. destruct (write_logs l1 index) as [es' r]. injection H as <- ->.
    now rewrite (IH es' eq_refl).
Qed.

Lemma write_logs_all {V} (logs : list (string * log_value V)) index : (forall e, In e logs -> wanted e = true -> exists x, one_real (snd e) x) ->
  exists es, write_logs logs index = (es, None) /\
             Forall2 (fun e ev => exists x, one_real (snd e) x /\ ev = Scalar (fst e) x index) (filter wanted logs) es.
Proof.
  induction logs as [|[n v] logs IH]; intros H; [exists []; split; [reflexivity|constructor]|].
  destruct (IH (fun e He => H e (or_intror He))) as [es [E F]]. cbn [write_logs]. rewrite (wanted_existsb n v). cbn [filter].
  destruct (wanted (n, v)) eqn:W; cbn [negb]; [|now exists es].
  destruct (H (n, v) (or_introl eq_refl) W) as [x Hx]. rewrite (proj2 (simple_value_one v x) Hx), E. eexists. split; [reflexivity|]. constructor; [|exact F].
  now exists x.
Qed.

Lemma write_logs_step {V} (logs : list (string * log_value V)) index : Forall (fun e => match e with Scalar _ _ s => s = index | Summaries _ _ => False end) (fst (write_logs logs index)).
Proof.
  induction logs as [|[n v] logs IH]; cbn [write_logs]; [constructor|]. destruct (existsb _ _); [exact IH|]. destruct (simple_value v); [|constructor].
  destruct (write_logs logs index). cbn [fst] in *. now constructor.
Qed.

Lemma slice_repeat {V} (x : V) n i m : firstn m (skipn i (repeat x n)) = repeat x (Nat.min m (n - i)).
Proof.
  replace (skipn i (repeat x n)) with (repeat x (n - i)).
  - generalize (n - i). induction m as [|m IH]; intros [|j]; cbn [firstn repeat Nat.min]; f_equal; try reflexivity. apply IH.
  - revert i. induction n as [|j IH]; intros [|i]; cbn [skipn repeat Nat.sub]; try reflexivity. apply IH.
Qed.

Lemma read_append s : forall acc c, read_digits acc (s ++ String c EmptyString) = 10 * read_digits acc s + (Ascii.nat_of_ascii c - 48).
Proof. induction s as [|d s IH]; intros acc c; [reflexivity|]. cbn [append read_digits]. apply IH. Qed.
Lemma digit_code n : Ascii.nat_of_ascii (Ascii.ascii_of_nat (48 + n mod 10)) - 48 = n mod 10.
Proof. rewrite Ascii.nat_ascii_embedding; pose proof (Nat.mod_upper_bound n 10); lia. Qed.
Lemma decimal_reads : forall fuel n, n <= fuel -> read_digits 0 (decimal fuel n) = n.
Proof.
  induction fuel as [|fuel IH]; intros n H.
  - replace n with 0 by lia. reflexivity.
  - cbn [decimal]. destruct (Nat.ltb_spec n 10) as [L|L].
    + unfold digit. cbn [read_digits]. rewrite digit_code, Nat.mul_0_r. cbn [Nat.add]. apply Nat.mod_small. exact L.
    + unfold digit. rewrite read_append, digit_code, IH.
      * symmetry. apply Nat.div_mod. lia.
      * pose proof (Nat.div_lt n 10). lia.
Qed.

Lemma mapped_name_chars s c : In c (list_ascii_of_string (mapped_name s)) -> c <> ":"%char.
Proof.
  induction s as [|d s IH]; [contradiction|]. cbn [mapped_name list_ascii_of_string]. intros [<-|H]; [|now apply IH].
  destruct (Ascii.eqb_spec d ":"%char); [discriminate|assumption].
Qed.

Lemma packed_equal shapes : (forall s1 s2, In s1 shapes -> In s2 shapes -> s1 = s2) -> packed shapes = true.
Proof.
  intros H. destruct shapes as [|s t]; [reflexivity|]. cbn [packed]. apply forallb_forall. intros s' Hs. destruct (list_eq_dec Nat.eq_dec s s') as [|N]; [reflexivity|].
  destruct N. apply H; [now left|now right].
Qed.
Lemma concat_res_all {A} (l : list (res (list A))) : (forall r, In r l -> exists x, r = Ok x) -> exists xs, concat_res l = Ok xs.
Proof.
  induction l as [|r l IH]; intros H; [now exists []|]. destruct (H r (or_introl eq_refl)) as [x ->]. destruct (IH (fun r Hr => H r (or_intror Hr))) as [xs E].
  exists (x ++ xs). cbn [concat_res bind]. now rewrite E.
Qed.
