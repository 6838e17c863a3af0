(** Proofs about the machines: causality and shapes. *)
From Coq Require Import List ZArith Arith Bool Reals Lia.
From Verif Require Import Base Cplx OrderingModel OrderingSpec OrderingProofs TensorModel AutoregressiveModel
  AutoregressiveSpec AutoregressiveProofs MachinesModel MachinesSpec.
Import ListNotations.

(** * Common *)

Lemma existsb_zero_false (l : list nat) : Forall (fun n => 0 < n) l -> existsb (Nat.eqb 0) l = false.
Proof. induction 1 as [|n l H _ IH]; cbn [existsb]; [reflexivity|]. rewrite IH. destruct n; [lia|reflexivity]. Qed.

Lemma conv_size_1 n k d : 1 <= k -> 0 < n -> conv_size (n + (k - 1) * d) k 1 d = n.
Proof.
  intros Hk Hn. unfold conv_size. destruct (Nat.ltb_spec (n + (k - 1) * d) ((k - 1) * d + 1)); [lia|].
  rewrite Nat.div_1_r. lia.
Qed.

Lemma conv_value_ext {T} (N : numbers T) (c : conv T) (u v : tensor (list T)) l :
  (forall w, In w (raster (kernel_size c)) -> tval u (conv_loc c l w) = tval v (conv_loc c l w)) ->
  tval (conv_output (zero N) (plus N) (times N) c u) l = tval (conv_output (zero N) (plus N) (times N) c v) l.
Proof.
  intros H. unfold conv_output. cbn [tval].
  match goal with |- activation c (match bias c with None => ?a | Some b => _ end) =
                     activation c (match bias c with None => ?a' | Some b' => _ end) =>
    assert (E : a = a') end.
  { apply map_ext. intros f. f_equal.
    rewrite !flat_map_concat_map. f_equal. apply map_ext_in. intros w Hw. rewrite (H w Hw). reflexivity. }
  rewrite E. reflexivity.
Qed.

Lemma conv_row_length {T} (N : numbers T) (w : weights T) f ks dil ch (u : tensor (list T)) l :
  length (tval (conv_output (zero N) (plus N) (times N) (conv_of w ks dil ch f) u) l) = f.
Proof.
  unfold conv_output, conv_of. cbn [tval bias activation filters].
  rewrite map2_length, !map_length. unfold range. rewrite !seq_length. lia.
Qed.

Lemma vector_to_complex_length v : length v mod 2 = 0 -> length (vector_to_complex v) = length v / 2.
Proof.
  intros H. unfold vector_to_complex. rewrite map2_length, firstn_length, skipn_length.
  pose proof (Nat.div_mod (length v) 2). lia.
Qed.

Lemma same_shape_refl a : same_shape a a = true.
Proof. unfold same_shape. destruct (list_eq_dec Nat.eq_dec a a); congruence. Qed.

(** * One dimension *)

(** [u] and [v] have [n] sites and agree on the first [m] of them. *)
Definition agree_1d {T} (n m : nat) (u v : ktensor T) : Prop :=
  tshape (kt u) = [n] /\ tshape (kt v) = [n] /\ features u = features v /\
  forall i, i < m -> i < n -> tval (kt u) [i] = tval (kt v) [i].

Lemma raster_1 k w : In w (raster [k]) -> exists a, w = [a] /\ a < k.
Proof.
  intros H. apply raster_ordering in H. inversion H as [|a k' l l' Ha Hl]; subst. inversion Hl; subst. eauto.
Qed.

Lemma conv_1d_ok {T} (N : numbers T) (w : weights T) f k d n (x : ktensor T) :
  1 <= k -> 0 < n -> tshape (kt x) = [n + (k - 1) * d] ->
  conv_layer N w f [k] [d] x =
    Ok {| kt := conv_output (zero N) (plus N) (times N) (conv_of w [k] [d] (features x) f) (kt x); features := f |}
  /\ tshape (conv_output (zero N) (plus N) (times N) (conv_of w [k] [d] (features x) f) (kt x)) = [n].
Proof.
  intros Hk Hn Hx.
  assert (E : tshape (conv_output (zero N) (plus N) (times N) (conv_of w [k] [d] (features x) f) (kt x)) = [n]).
  { unfold conv_output, conv_of. cbn [tshape kernel_size strides dilation_rate map]. rewrite Hx.
    cbn [conv_shape]. rewrite conv_size_1; auto. }
  split; [|exact E]. unfold conv_layer. rewrite E, existsb_zero_false; [reflexivity|]. repeat constructor. exact Hn.
Qed.

Lemma pad_1d_shape {T} (N : numbers T) p n (x : ktensor T) :
  tshape (kt x) = [n] -> tshape (kt (zero_pad N [(p, 0)] x)) = [n + p].
Proof.
  intros H. unfold zero_pad, zero_padding. cbn [kt zero_padding_from]. unfold concat2, constant_like. cbn [tshape].
  rewrite H. cbn [upd nth]. f_equal. lia.
Qed.
Lemma pad_1d_value {T} (N : numbers T) p n (x : ktensor T) i :
  tshape (kt x) = [n] -> i < n + p ->
  tval (kt (zero_pad N [(p, 0)] x)) [i] = if i <? p then repeat (zero N) (features x) else tval (kt x) [i - p].
Proof.
  intros H Hi. unfold zero_pad, zero_padding. cbn [kt zero_padding_from]. unfold concat2, constant_like.
  cbn [tshape tval]. rewrite H. cbn [upd nth].
  destruct (Nat.ltb_spec i (p + n)); [|lia]. reflexivity.
Qed.

Lemma causal_conv_agree {T} (N : numbers T) (w : weights T) f k d act skip_u skip_v n m (u v : ktensor T) :
  1 <= k -> 1 <= d -> 0 < n -> agree_1d n m u v ->
  match skip_u, skip_v with
  | None, None => True
  | Some a, Some b => agree_1d n m a b /\ features a = f
  | _, _ => False
  end ->
  exists u' v', causal_conv_1d N w u f k d act skip_u = Ok u' /\ causal_conv_1d N w v f k d act skip_v = Ok v' /\
    agree_1d n m u' v' /\ features u' = f.
Proof.
  intros Hk Hd Hn (Hu & Hv & Hf & Huv) Hskip.
  set (pd := k + (k - 1) * (d - 1) - 1).
  assert (Hpd : pd = (k - 1) * d) by (unfold pd; destruct k; [lia|]; destruct d; [lia|]; cbn [Nat.sub Nat.mul]; nia).
  set (pu := if 0 <? pd then zero_pad N [(pd, 0)] u else u).
  set (pv := if 0 <? pd then zero_pad N [(pd, 0)] v else v).
  assert (Su : tshape (kt pu) = [n + (k - 1) * d]).
  { rewrite <- Hpd. unfold pu. destruct (Nat.ltb_spec 0 pd); [apply pad_1d_shape; auto|]. rewrite Hu. f_equal. lia. }
  assert (Sv : tshape (kt pv) = [n + (k - 1) * d]).
  { rewrite <- Hpd. unfold pv. destruct (Nat.ltb_spec 0 pd); [apply pad_1d_shape; auto|]. rewrite Hv. f_equal. lia. }
  assert (Fuv : features pu = features pv) by (unfold pu, pv; destruct (0 <? pd); cbn [zero_pad features]; auto).
  assert (Vuv : forall i, i < m + pd -> i < n + pd -> tval (kt pu) [i] = tval (kt pv) [i]).
  { intros i Hi Hi'. unfold pu, pv. destruct (Nat.ltb_spec 0 pd).
    - rewrite (pad_1d_value N pd n u i), (pad_1d_value N pd n v i) by auto. rewrite Hf.
      destruct (Nat.ltb_spec i pd); [reflexivity|]. apply Huv; lia.
    - apply Huv; lia. }
  destruct (conv_1d_ok N w f k d n pu Hk Hn Su) as [Cu Tu].
  destruct (conv_1d_ok N w f k d n pv Hk Hn Sv) as [Cv Tv].
  set (cu := {| kt := conv_output (zero N) (plus N) (times N) (conv_of w [k] [d] (features pu) f) (kt pu); features := f |}) in *.
  set (cv := {| kt := conv_output (zero N) (plus N) (times N) (conv_of w [k] [d] (features pv) f) (kt pv); features := f |}) in *.
  assert (Acv : agree_1d n m cu cv).
  { split; [exact Tu|]. split; [exact Tv|]. split; [reflexivity|]. intros i Hi Hi'. unfold cu, cv. cbn [kt].
    rewrite Fuv. apply conv_value_ext. cbn [conv_of kernel_size]. intros l Hl.
    destruct (raster_1 k l Hl) as (a & -> & Ha). unfold conv_loc, conv_of. cbn [strides dilation_rate map map2].
    assert (a * d <= pd) by (rewrite Hpd; apply Nat.mul_le_mono_r; lia).
    apply Vuv; lia. }
  unfold causal_conv_1d. fold pd. fold pu. fold pv. rewrite Cu, Cv. cbn [bind].
  assert (G : exists u1 v1, match skip_u with None => Ok cu | Some s => add_layer N cu s end = Ok u1 /\
                match skip_v with None => Ok cv | Some s => add_layer N cv s end = Ok v1 /\ agree_1d n m u1 v1 /\
                features u1 = f).
  { destruct skip_u as [a|], skip_v as [b|]; try contradiction.
    - destruct Hskip as [(Ha & Hb & Hfab & Hab) Hfa].
      destruct Acv as (A1 & A2 & A3 & A4).
      unfold add_layer. rewrite A1, A2, Ha, Hb, !same_shape_refl.
      replace (features cu =? features a) with true by (symmetry; apply Nat.eqb_eq; auto).
      replace (features cv =? features b) with true by (symmetry; apply Nat.eqb_eq; rewrite <- Hfab; auto).
      cbn [andb]. do 2 eexists. split; [reflexivity|]. split; [reflexivity|]. split; [|reflexivity].
      split; [reflexivity|]. split; [reflexivity|]. split; [exact A3|]. intros i Hi Hi'. cbn [kt tval].
      rewrite A4, Hab by auto. reflexivity.
    - exists cu, cv. auto. }
  destruct G as (u1 & v1 & -> & -> & A & F). cbn [bind].
  destruct act as [a|]; [|exists u1, v1; auto].
  do 2 eexists. split; [reflexivity|]. split; [reflexivity|]. split; [|exact F].
  destruct A as (A1 & A2 & A3 & A4). split; [exact A1|]. split; [exact A2|]. split; [exact A3|].
  intros i Hi Hi'. cbn [activate kt tval]. rewrite A4; auto.
Qed.

Lemma next_dilation_pos p d : 1 <= d -> 1 <= next_dilation p d.
Proof.
  intros H. unfold next_dilation. destruct (use_dilation p); [|exact H].
  destruct (max_dilation_rate p) as [mx|]; [|exact H]. destruct (d <? mx); lia.
Qed.

Lemma conv_stack_agree {T} (N : numbers T) p (W : nat -> weights T) act skips n m :
  1 <= ksize p -> 0 < n ->
  forall k i d (u v : ktensor T), 1 <= d -> agree_1d n m u v -> (0 < i -> features u = num_of_channels p) ->
  exists u' v', conv_stack N p W act skips k i d u = Ok u' /\ conv_stack N p W act skips k i d v = Ok v' /\
    agree_1d n m u' v'.
Proof.
  intros Hk Hn k. induction k as [|k IH]; intros i d u v Hd A F; cbn [conv_stack].
  - exists u, v. auto.
  - destruct (causal_conv_agree N (W i) (num_of_channels p) (ksize p) d act
      (if skips && (0 <? i) then Some u else None) (if skips && (0 <? i) then Some v else None) n m u v Hk Hd Hn A)
      as (u' & v' & -> & -> & A' & F').
    { destruct skips; cbn [andb]; [|exact I]. destruct (Nat.ltb_spec 0 i); [|exact I]. auto. }
    cbn [bind]. apply IH; auto using next_dilation_pos.
Qed.

Lemma shift_agree {T} (N : numbers T) n m (u v : ktensor T) :
  0 < n -> agree_1d n m u v -> agree_1d n (S m) (shift_layer N 0 u) (shift_layer N 0 v).
Proof.
  intros Hn (A1 & A2 & A3 & A4). unfold shift_layer, shift, concat2, constant_like, take_first.
  split; [|split; [|split]]; cbn [kt tshape tval features]; rewrite ?A1, ?A2; cbn [upd nth]; auto.
  - f_equal. lia.
  - f_equal. lia.
  - intros i Hi Hi'. cbn [nth upd]. rewrite A3. destruct (Nat.ltb_spec i 1); [reflexivity|]. apply A4; lia.
Qed.

(** The result of a machine on two inputs that agree on the first [m] sites. *)
Definition outputs_agree (n m : nat) (a b : res (tensor (list C))) : Prop :=
  exists u v, a = Ok u /\ b = Ok v /\ tshape u = [n] /\ tshape v = [n] /\
    (forall l, length (tval u l) = 2) /\ (forall l, length (tval v l) = 2) /\
    forall i, i <= m -> i < n -> tval u [i] = tval v [i].

Lemma vtc_conv_length w ks dil ch (x : tensor (list R)) l :
  length (vector_to_complex (tval (conv_output (zero real_numbers) (plus real_numbers) (times real_numbers)
    (conv_of w ks dil ch 4) x) l)) = 2.
Proof. rewrite vector_to_complex_length; rewrite conv_row_length; reflexivity. Qed.

Lemma conv_net_1d_agree p W act n m u v :
  1 <= ksize p -> 0 < n -> agree_1d n m u v -> outputs_agree n m (conv_net_1d p W act u) (conv_net_1d p W act v).
Proof.
  intros Hk Hn A. unfold conv_net_1d.
  destruct (conv_stack_agree real_numbers p W act (add_skip_connections p) n m Hk Hn (depth p - 2) 0 1 u v)
    as (u1 & v1 & -> & -> & A1); auto; [lia|].
  cbn [bind]. apply (shift_agree real_numbers) in A1; [|exact Hn].
  set (u2 := shift_layer real_numbers 0 u1) in *. set (v2 := shift_layer real_numbers 0 v1) in *.
  unfold causal_conv_1d. cbn [Nat.sub Nat.mul Nat.add Nat.ltb Nat.leb].
  destruct A1 as (S1 & S2 & F & V).
  destruct (conv_1d_ok real_numbers (W (depth p - 2)) 4 1 1 n u2) as [-> Tu]; [lia|auto|rewrite S1; f_equal; lia|].
  destruct (conv_1d_ok real_numbers (W (depth p - 2)) 4 1 1 n v2) as [-> Tv]; [lia|auto|rewrite S2; f_equal; lia|].
  cbn [bind]. unfold vector_to_complex_layer. cbn [features kt].
  replace (4 mod 2 =? 0) with true by reflexivity.
  do 2 eexists. split; [reflexivity|]. split; [reflexivity|]. cbn [tshape tval].
  split; [exact Tu|]. split; [exact Tv|].
  split; [intros l; apply vtc_conv_length|]. split; [intros l; apply vtc_conv_length|].
  intros i Hi Hi'. f_equal. rewrite F. apply conv_value_ext. cbn [conv_of kernel_size]. intros l Hl.
  destruct (raster_1 1 l Hl) as (a & -> & Ha). unfold conv_loc, conv_of. cbn [strides dilation_rate map map2].
  apply V; lia.
Qed.

Lemma complex_conv_net_1d_agree p W act n m u v :
  1 <= ksize p -> 0 < n -> tshape u = [n] -> tshape v = [n] ->
  (forall i, i < m -> i < n -> tval u [i] = tval v [i]) ->
  outputs_agree n m (complex_conv_net_1d p W act u) (complex_conv_net_1d p W act v).
Proof.
  intros Hk Hn Hu Hv Huv. unfold complex_conv_net_1d.
  set (of_Z := fun z => RtoC (IZR z)).
  destruct (conv_stack_agree complex_numbers p W act false n m Hk Hn (depth p - 1) 0 1
    (expand_and_cast of_Z u) (expand_and_cast of_Z v)) as (u1 & v1 & -> & -> & A1); auto; [| lia |].
  { split; [exact Hu|]. split; [exact Hv|]. split; [reflexivity|]. intros i Hi Hi'.
    cbn [expand_and_cast kt tval]. rewrite Huv; auto. }
  cbn [bind]. apply (shift_agree complex_numbers) in A1; [|exact Hn].
  set (u2 := shift_layer complex_numbers 0 u1) in *. set (v2 := shift_layer complex_numbers 0 v1) in *.
  unfold causal_conv_1d. cbn [Nat.sub Nat.mul Nat.add Nat.ltb Nat.leb].
  destruct A1 as (S1 & S2 & F & V).
  destruct (conv_1d_ok complex_numbers (W (depth p - 1)) 2 1 1 n u2) as [-> Tu]; [lia|auto|rewrite S1; f_equal; lia|].
  destruct (conv_1d_ok complex_numbers (W (depth p - 1)) 2 1 1 n v2) as [-> Tv]; [lia|auto|rewrite S2; f_equal; lia|].
  cbn [bind kt].
  do 2 eexists. split; [reflexivity|]. split; [reflexivity|]. split; [exact Tu|]. split; [exact Tv|].
  split; [intros l; apply conv_row_length|]. split; [intros l; apply conv_row_length|].
  intros i Hi Hi'. rewrite F. apply conv_value_ext. cbn [conv_of kernel_size]. intros l Hl.
  destruct (raster_1 1 l Hl) as (a & -> & Ha). unfold conv_loc, conv_of. cbn [strides dilation_rate map map2].
  apply V; lia.
Qed.

Lemma location_1 n i : location [n] i = [i].
Proof. cbn [location volume fold_right]. rewrite Nat.div_1_r. reflexivity. Qed.

Lemma seq_split_before n before i after : seq 0 n = before ++ i :: after -> i = length before /\ before = seq 0 i /\ i < n.
Proof.
  intros E.
  assert (L : length before < n).
  { apply (f_equal (@length nat)) in E. rewrite seq_length, app_length in E. simpl in E. lia. }
  assert (I : i = length before).
  { pose proof (f_equal (fun l => nth (length before) l 0) E) as H. cbv beta in H.
    rewrite seq_nth, app_nth2, Nat.sub_diag in H by lia. simpl in H. lia. }
  split; [exact I|]. split; [|lia].
  pose proof (f_equal (firstn (length before)) E) as H.
  rewrite firstn_app, firstn_all, Nat.sub_diag, firstn_O, app_nil_r in H.
  rewrite <- H, I. replace n with (length before + (n - length before)) by lia.
  rewrite seq_app, firstn_app, seq_length, Nat.sub_diag, firstn_O, app_nil_r. apply firstn_all2. rewrite seq_length. lia.
Qed.

Lemma causal_1d (machine : tensor Z -> res (tensor (list C))) n :
  (forall m u v, tshape u = [n] -> tshape v = [n] -> (forall i, i < m -> i < n -> tval u [i] = tval v [i]) ->
     outputs_agree n m (machine u) (machine v)) ->
  well_shaped machine [n] /\ autoregressive n (seq 0 n) (conditionals machine [n]).
Proof.
  intros H. split.
  - intros s. destruct (H 0 (input_array [n] s) (input_array [n] s)) as (u & v & E & _ & S1 & _ & L & _); auto; eauto.
  - intros before i after E s t _ _ A. apply seq_split_before in E. destruct E as (_ & -> & Hi).
    destruct (H i (input_array [n] s) (input_array [n] t)) as (u & v & E1 & E2 & _ & _ & _ & _ & V); auto.
    { intros j Hj _. cbn [input_array tval]. cbn [row_major volume fold_right].
      rewrite Nat.mul_1_r, Nat.add_0_r. apply A. apply in_seq. lia. }
    unfold conditionals. rewrite E1, E2, location_1. apply V; lia.
Qed.

Lemma simple_conv_net_1d_causal p W act n :
  1 <= ksize p -> 0 < n ->
  well_shaped (simple_conv_net_1d p W act) [n] /\
  autoregressive n (seq 0 n) (conditionals (simple_conv_net_1d p W act) [n]).
Proof.
  intros Hk Hn. apply causal_1d. intros m u v Hu Hv Huv. apply conv_net_1d_agree; auto.
  split; [exact Hu|]. split; [exact Hv|]. split; [reflexivity|].
  intros i Hi Hi'. cbn [expand_and_cast kt tval]. rewrite Huv; auto.
Qed.

Lemma complex_conv_net_1d_causal p W act n :
  1 <= ksize p -> 0 < n ->
  well_shaped (complex_conv_net_1d p W act) [n] /\
  autoregressive n (seq 0 n) (conditionals (complex_conv_net_1d p W act) [n]).
Proof. intros Hk Hn. apply causal_1d. intros. apply complex_conv_net_1d_agree; auto. Qed.

Lemma seq_visits_once n : visits_once n (seq 0 n).
Proof. split; [apply seq_NoDup|]. intros i. rewrite in_seq. lia. Qed.

(** * Custom ordering *)

Lemma volume_cons' n sh : volume (n :: sh) = n * volume sh. Proof. reflexivity. Qed.
Lemma row_major_location sh : forall k, k < volume sh -> row_major sh (location sh k) = k.
Proof.
  induction sh as [|n sh IH]; intros k K; cbn [location row_major].
  - unfold volume in K. cbn [fold_right] in K. lia.
  - rewrite volume_cons' in K. assert (volume sh <> 0) by nia.
    rewrite IH by (apply Nat.mod_upper_bound; auto). rewrite (Nat.div_mod k (volume sh)) at 3 by auto. lia.
Qed.
Lemma location_in sh : forall k, k < volume sh -> in_shape sh (location sh k).
Proof.
  induction sh as [|n sh IH]; intros k H; cbn [location]; constructor; rewrite volume_cons' in H.
  - apply Nat.div_lt_upper_bound; [intros E; rewrite E in H; lia|lia].
  - apply IH. apply Nat.mod_upper_bound. intros E. rewrite E in H. lia.
Qed.
Lemma location_row_major sh : forall l, in_shape sh l -> location sh (row_major sh l) = l.
Proof.
  induction sh as [|n sh IH]; intros l H; inversion H as [|i n' l' sh' Hi Hl]; subst; cbn [row_major location]; [reflexivity|].
  pose proof (row_major_lt _ _ Hl). f_equal.
  - rewrite Nat.div_add_l by lia. rewrite Nat.div_small by auto. lia.
  - rewrite (Nat.add_comm (i * _)), Nat.mod_add by lia. rewrite Nat.mod_small by auto. now apply IH.
Qed.
Lemma unravel_location sh : forall k, unravel sh k = location sh k.
Proof. induction sh as [|n sh IH]; intros k; cbn [unravel location]; [reflexivity|]. fold (volume sh). now rewrite IH. Qed.

Lemma nth_of_error {A} (l : list A) k x d : nth_error l k = Some x -> nth k l d = x.
Proof. revert k. induction l as [|a l IH]; intros [|k] H; cbn in *; try discriminate; [congruence | auto]. Qed.

Lemma custom_ordering_agree shape o p W act (s t : list Z) m :
  1 <= ksize p -> 0 < volume shape -> ordering_of shape o ->
  (forall l, In l (firstn m o) -> nth (row_major shape l) s 0%Z = nth (row_major shape l) t 0%Z) ->
  exists u v, custom_ordering_net o p W act (input_array shape s) = Ok u /\
    custom_ordering_net o p W act (input_array shape t) = Ok v /\ tshape u = shape /\
    (forall l, length (tval u l) = 2) /\
    (forall l, nth_error o m = Some l -> tval u l = tval v l).
Proof.
  intros Hk Hn HO Hst. unfold custom_ordering_net. cbv zeta. cbn [input_array tshape].
  fold (volume shape). set (n := volume shape) in *.
  destruct (inverse_ordering_ok shape o HO) as (inv & Einv & Linv & Sinv).
  pose proof (flat_perm shape o HO) as P. fold n in P, Linv.
  set (flat := to_flat_ordering o shape) in *.
  assert (Lf : length flat = n) by (apply Permutation.Permutation_length in P; now rewrite range_length in P).
  assert (LO : length o = n) by (unfold flat, to_flat_ordering in Lf; now rewrite map_length in Lf).
  assert (Bf : forallb (fun i => i <? n) flat = true).
  { apply forallb_forall. intros i Hi. apply Nat.ltb_lt. apply in_range. eapply Permutation.Permutation_in; eauto. }
  assert (Binv : forallb (fun i => i <? n) inv = true).
  { apply forallb_forall. intros i Hi. apply Nat.ltb_lt. apply In_nth_error in Hi. destruct Hi as [q Hq].
    assert (Hqn : q < n) by (rewrite <- Linv; apply nth_error_Some; congruence).
    assert (Hin : In q flat).
    { eapply Permutation.Permutation_in; [symmetry; exact P|]. now apply in_range. }
    apply In_nth_error in Hin. destruct Hin as [k Hk']. pose proof (Sinv _ _ Hk') as E. rewrite Hq in E.
    injection E as ->. rewrite <- Lf. apply nth_error_Some. congruence. }
  unfold gather_axis at 1. unfold gather_axis at 2.
  cbn [reshape tshape nth]. rewrite Bf. cbn [bind upd]. rewrite Lf.
  match goal with |- context [conv_net_1d p W act (expand_and_cast IZR ?a)] => set (gs := a) end.
  match goal with |- context [_ = Ok _ /\ bind (conv_net_1d p W act (expand_and_cast IZR ?a)) _ = Ok _ /\ _] => set (gt := a) end.
  assert (V : forall k, k < n -> forall r, nth (row_major shape (unravel shape (flat_loop (upd [k] 0 (nth (nth 0 [k] 0) flat 0)) [n] 0))) r 0%Z
              = nth (nth k flat 0) r 0%Z).
  { intros k K r. cbn [nth upd flat_loop]. rewrite unravel_location. f_equal. rewrite row_major_location.
    - lia.
    - fold n. assert (In (nth k flat 0) flat) by (apply nth_In; lia).
      assert (nth k flat 0 < n) by (apply in_range; eapply Permutation.Permutation_in; eauto). lia. }
  destruct (conv_net_1d_agree p W act n m (expand_and_cast IZR gs) (expand_and_cast IZR gt))
    as (u & v & -> & -> & Su & Sv & Lu & Lv & A); auto.
  { split; [reflexivity|]. split; [reflexivity|]. split; [reflexivity|]. intros i Hi Hi'.
    unfold gs, gt, reshape, input_array. cbn [expand_and_cast kt tval tshape]. rewrite !V by auto.
    do 2 f_equal.
    assert (Ho : exists l, nth_error o i = Some l).
    { destruct (nth_error o i) as [l|] eqn:E; [eauto|]. apply nth_error_None in E. lia. }
    destruct Ho as [l Hl].
    assert (Hf : nth i flat 0 = row_major shape l).
    { apply nth_of_error. unfold flat, to_flat_ordering. rewrite nth_error_map, Hl. cbn [option_map]. f_equal.
      rewrite flat_loop_acc; [lia|]. apply HO. now apply nth_error_In in Hl. }
    rewrite Hf. apply Hst. apply nth_error_In with i.
    clear - Hl Hi. revert i m Hl Hi. induction o as [|a o IH]; intros [|i] [|m] Hl Hi; cbn in *; try discriminate; try lia; auto.
    apply IH; [exact Hl|lia]. }
  cbn [bind]. rewrite Einv. cbn [bind]. unfold gather_axis. rewrite Su, Sv. cbn [nth]. rewrite Binv.
  cbn [bind upd tshape fold_right]. rewrite Linv, Nat.mul_1_r. fold (volume shape). fold n. rewrite Nat.eqb_refl.
  do 2 eexists. split; [reflexivity|]. split; [reflexivity|]. split; [reflexivity|].
  split; [intros l; cbn [reshape tval]; apply Lu|].
  intros l Hl. unfold reshape. cbn [tval tshape unravel fold_right upd nth]. rewrite Nat.div_1_r.
  assert (Hin : in_shape shape l) by (apply HO; now apply nth_error_In in Hl).
  rewrite flat_loop_acc by auto. cbn [Nat.mul Nat.add].
  assert (HS : nth_error inv (row_major shape l) = Some m).
  { apply Sinv. unfold flat, to_flat_ordering. rewrite nth_error_map, Hl. cbn [option_map]. f_equal.
    rewrite flat_loop_acc by auto. lia. }
  rewrite (nth_of_error _ _ _ 0 HS). apply A; [lia|]. rewrite <- LO. apply nth_error_Some. congruence.
Qed.

Lemma custom_ordering_causal shape o p W act :
  1 <= ksize p -> 0 < volume shape -> ordering_of shape o ->
  well_shaped (custom_ordering_net o p W act) shape /\
  autoregressive (volume shape) (map (row_major shape) o) (conditionals (custom_ordering_net o p W act) shape).
Proof.
  intros Hk Hn HO. split.
  - intros s. destruct (custom_ordering_agree shape o p W act s s 0 Hk Hn HO) as (u & v & E & _ & S1 & L & _); auto; eauto.
  - intros before i after E s t _ _ A.
    set (m := length before).
    assert (LB : m < length o) by (rewrite <- (map_length (row_major shape)), E, app_length; simpl; unfold m; lia).
    destruct (nth_error o m) as [l|] eqn:Hl; [|apply nth_error_None in Hl; lia].
    assert (Hin : in_shape shape l) by (apply HO; now apply nth_error_In in Hl).
    assert (Hi : i = row_major shape l).
    { pose proof (f_equal (fun x => nth_error x m) E) as H. cbv beta in H. rewrite nth_error_map, Hl in H.
      unfold m in H. rewrite nth_error_app2, Nat.sub_diag in H by lia. cbn in H. congruence. }
    assert (Hb : map (row_major shape) (firstn m o) = before).
    { rewrite <- firstn_map, E, firstn_app. unfold m. rewrite firstn_all, Nat.sub_diag. cbn. apply app_nil_r. }
    destruct (custom_ordering_agree shape o p W act s t m Hk Hn HO) as (u & v & E1 & E2 & _ & _ & V).
    { intros l' Hl'. apply A. rewrite <- Hb. now apply in_map. }
    unfold conditionals. rewrite E1, E2, Hi, location_row_major by auto. now apply V.
Qed.

Lemma ordering_visits_once shape o : ordering_of shape o -> visits_once (volume shape) (map (row_major shape) o).
Proof.
  intros HO. pose proof (flat_perm shape o HO) as P.
  assert (E : map (row_major shape) o = to_flat_ordering o shape).
  { unfold to_flat_ordering. apply map_ext_in. intros l Hl. rewrite flat_loop_acc; [lia|]. now apply HO. }
  rewrite E. split.
  - eapply Permutation.Permutation_NoDup; [symmetry; exact P | apply range_NoDup].
  - intros i. split; intros H.
    + apply in_range. eapply Permutation.Permutation_in; eauto.
    + eapply Permutation.Permutation_in; [symmetry; exact P|]. now apply in_range.
Qed.

(** * Two dimensions *)

(** [u] and [v] have [h] times [w] sites and agree on the region [P]. *)
Definition agree_2d {T} (h w : nat) (P : nat -> nat -> Prop) (u v : ktensor T) : Prop :=
  tshape (kt u) = [h; w] /\ tshape (kt v) = [h; w] /\ features u = features v /\
  forall i j, i < h -> j < w -> P i j -> tval (kt u) [i; j] = tval (kt v) [i; j].

Lemma raster_2 k1 k2 l : In l (raster [k1; k2]) -> exists a b, l = [a; b] /\ a < k1 /\ b < k2.
Proof.
  intros H. apply raster_ordering in H. inversion H as [|a k' l1 l' Ha Hl]; subst. inversion Hl as [|b k'' l2 l'' Hb Hl2]; subst.
  inversion Hl2; subst. eauto.
Qed.

(** Zero padding before a convolution, or nothing when the padding is zero. *)
Lemma pad_2d {T} (N : numbers T) (c : bool) a b b' h w (x : ktensor T) :
  (c = false -> a = 0 /\ b = 0 /\ b' = 0) -> tshape (kt x) = [h; w] ->
  let px := if c then zero_pad N [(a, 0); (b, b')] x else x in
  tshape (kt px) = [h + a; w + (b + b')] /\ features px = features x /\
  forall i j, i < h + a -> j < w + (b + b') ->
    tval (kt px) [i; j] =
      if (i <? a) || (j <? b) || (b + w <=? j) then repeat (zero N) (features x) else tval (kt x) [i - a; j - b].
Proof.
  intros Hc Hx px. unfold px. destruct c.
  - unfold zero_pad, zero_padding. cbn [kt zero_padding_from features]. unfold concat2, constant_like. cbn [tshape tval].
    rewrite Hx. cbn [upd nth]. split; [f_equal; [lia|f_equal; lia]|]. split; [reflexivity|].
    intros i j Hi Hj. cbn [upd nth].
    destruct (Nat.ltb_spec j (b + w)), (Nat.ltb_spec j b), (Nat.ltb_spec i (a + h)), (Nat.ltb_spec i a),
      (Nat.leb_spec (b + w) j); cbn [orb]; try lia; reflexivity.
  - destruct (Hc eq_refl) as (-> & -> & ->). rewrite Hx. split; [f_equal; [lia|f_equal; lia]|]. split; [reflexivity|].
    intros i j Hi Hj. cbn [Nat.ltb Nat.leb orb Nat.add].
    destruct (Nat.leb_spec w j); [lia|]. rewrite !Nat.sub_0_r. reflexivity.
Qed.

Lemma conv_2d_ok {T} (N : numbers T) (w : weights T) f k1 k2 h wd (x : ktensor T) :
  1 <= k1 -> 1 <= k2 -> 0 < h -> 0 < wd -> tshape (kt x) = [h + (k1 - 1); wd + (k2 - 1)] ->
  conv_layer N w f [k1; k2] [1; 1] x =
    Ok {| kt := conv_output (zero N) (plus N) (times N) (conv_of w [k1; k2] [1; 1] (features x) f) (kt x); features := f |}
  /\ tshape (conv_output (zero N) (plus N) (times N) (conv_of w [k1; k2] [1; 1] (features x) f) (kt x)) = [h; wd].
Proof.
  intros H1 H2 Hh Hw Hx.
  assert (E : tshape (conv_output (zero N) (plus N) (times N) (conv_of w [k1; k2] [1; 1] (features x) f) (kt x)) = [h; wd]).
  { unfold conv_output, conv_of. cbn [tshape kernel_size strides dilation_rate map]. rewrite Hx.
    cbn [conv_shape]. rewrite <- (Nat.mul_1_r (k1 - 1)) at 1. rewrite <- (Nat.mul_1_r (k2 - 1)) at 1.
    rewrite !conv_size_1; auto. }
  split; [|exact E]. unfold conv_layer. rewrite E, existsb_zero_false; [reflexivity|]. repeat constructor; auto.
Qed.

Lemma pad_conv_agree {T} (N : numbers T) (W : weights T) f k1 k2 c a b b' h w (P Q : nat -> nat -> Prop) (u v : ktensor T) :
  (c = false -> a = 0 /\ b = 0 /\ b' = 0) -> 1 <= k1 -> 1 <= k2 -> 0 < h -> 0 < w -> a = k1 - 1 -> b + b' = k2 - 1 ->
  agree_2d h w P u v ->
  (forall i j i' j', Q i j -> i' <= i -> i <= i' + (k1 - 1) -> j <= j' + b -> j' + b <= j + (k2 - 1) -> P i' j') ->
  exists u' v',
    conv_layer N W f [k1; k2] [1; 1] (if c then zero_pad N [(a, 0); (b, b')] u else u) = Ok u' /\
    conv_layer N W f [k1; k2] [1; 1] (if c then zero_pad N [(a, 0); (b, b')] v else v) = Ok v' /\
    agree_2d h w Q u' v' /\ features u' = f /\
    forall l, length (tval (kt u') l) = f.
Proof.
  intros Hc H1 H2 Hh Hw Ha Hb (Su & Sv & F & V) HQ.
  destruct (pad_2d N c a b b' h w u Hc Su) as (Pu & Fu & Vu).
  destruct (pad_2d N c a b b' h w v Hc Sv) as (Pv & Fv & Vv).
  set (pu := if c then zero_pad N [(a, 0); (b, b')] u else u) in *.
  set (pv := if c then zero_pad N [(a, 0); (b, b')] v else v) in *.
  rewrite Ha, Hb in Pu, Pv.
  destruct (conv_2d_ok N W f k1 k2 h w pu H1 H2 Hh Hw Pu) as [-> Tu].
  destruct (conv_2d_ok N W f k1 k2 h w pv H1 H2 Hh Hw Pv) as [-> Tv].
  do 2 eexists. split; [reflexivity|]. split; [reflexivity|]. split; [|split; [reflexivity|]].
  - split; [exact Tu|]. split; [exact Tv|]. split; [reflexivity|]. intros i j Hi Hj HQij. cbn [kt].
    replace (features pv) with (features pu) by congruence. apply conv_value_ext. cbn [conv_of kernel_size].
    intros l Hl. destruct (raster_2 k1 k2 l Hl) as (x & y & -> & Hx & Hy).
    unfold conv_loc, conv_of. cbn [strides dilation_rate map map2]. rewrite !Nat.mul_1_r.
    rewrite Vu, Vv by lia. rewrite F.
    destruct (Nat.ltb_spec (i + x) a); cbn [orb]; [reflexivity|].
    destruct (Nat.ltb_spec (j + y) b); cbn [orb]; [reflexivity|].
    destruct (Nat.leb_spec (b + w) (j + y)); [reflexivity|].
    apply V; try lia. apply (HQ i j); try lia. exact HQij.
  - intros l. cbn [kt]. apply conv_row_length.
Qed.

Lemma activate_agree {T} act h w P (u v : ktensor T) : agree_2d h w P u v -> agree_2d h w P (activate act u) (activate act v).
Proof.
  intros (A1 & A2 & A3 & A4). split; [exact A1|]. split; [exact A2|]. split; [exact A3|].
  intros i j Hi Hj Hp. cbn [activate kt tval]. now rewrite A4.
Qed.

Lemma down_shift_agree {T} (N : numbers T) h w (P Q : nat -> nat -> Prop) (u v : ktensor T) :
  0 < h -> (forall i j, Q (S i) j -> P i j) -> agree_2d h w P u v ->
  agree_2d h w Q (shift_layer N 0 u) (shift_layer N 0 v).
Proof.
  intros Hh HQ (A1 & A2 & A3 & A4). unfold shift_layer, shift, concat2, constant_like, take_first.
  split; [|split; [|split]]; cbn [kt tshape tval features]; rewrite ?A1, ?A2; cbn [upd nth]; auto.
  - f_equal. lia.
  - f_equal. lia.
  - intros i j Hi Hj Hq. cbn [nth upd]. rewrite A3. destruct (Nat.ltb_spec i 1); [reflexivity|].
    apply A4; try lia. apply HQ. replace (S (i - 1)) with i by lia. exact Hq.
Qed.

Lemma right_shift_agree {T} (N : numbers T) h w (P Q : nat -> nat -> Prop) (u v : ktensor T) :
  0 < w -> (forall i j, Q i (S j) -> P i j) -> agree_2d h w P u v ->
  agree_2d h w Q (shift_layer N 1 u) (shift_layer N 1 v).
Proof.
  intros Hh HQ (A1 & A2 & A3 & A4). unfold shift_layer, shift, concat2, constant_like, take_first.
  split; [|split; [|split]]; cbn [kt tshape tval features]; rewrite ?A1, ?A2; cbn [upd nth]; auto.
  - do 2 f_equal. lia.
  - do 2 f_equal. lia.
  - intros i j Hi Hj Hq. cbn [nth upd]. rewrite A3. destruct (Nat.ltb_spec j 1); [reflexivity|].
    apply A4; try lia. apply HQ. replace (S (j - 1)) with j by lia. exact Hq.
Qed.

Lemma concatenate_agree {T} h w P (a b c d : ktensor T) : agree_2d h w P a b -> agree_2d h w P c d ->
  exists u v, concatenate_features a c = Ok u /\ concatenate_features b d = Ok v /\ agree_2d h w P u v.
Proof.
  intros (A1 & A2 & A3 & A4) (B1 & B2 & B3 & B4). unfold concatenate_features.
  rewrite A1, A2, B1, B2, same_shape_refl. do 2 eexists. split; [reflexivity|]. split; [reflexivity|].
  split; [reflexivity|]. split; [reflexivity|]. split; [cbn [features]; congruence|].
  intros i j Hi Hj Hp. cbn [kt tval]. now rewrite A4, B4.
Qed.

Lemma add_agree {T} (N : numbers T) h w P (a b c d : ktensor T) : agree_2d h w P a b -> agree_2d h w P c d ->
  features a = features c ->
  exists u v, add_layer N a c = Ok u /\ add_layer N b d = Ok v /\ agree_2d h w P u v /\ features u = features a.
Proof.
  intros (A1 & A2 & A3 & A4) (B1 & B2 & B3 & B4) F. unfold add_layer.
  rewrite A1, A2, B1, B2, same_shape_refl.
  replace (features a =? features c) with true by (symmetry; apply Nat.eqb_eq; auto).
  replace (features b =? features d) with true by (symmetry; apply Nat.eqb_eq; congruence).
  cbn [andb]. do 2 eexists. split; [reflexivity|]. split; [reflexivity|]. split; [|reflexivity].
  split; [reflexivity|]. split; [reflexivity|]. split; [exact A3|].
  intros i j Hi Hj Hp. cbn [kt tval]. now rewrite A4, B4.
Qed.

(** The rows above [i0], and the sites before (or up to) (i0, j0). *)
Definition above (i0 : nat) (i j : nat) : Prop := i < i0.
Definition before (i0 j0 : nat) (i j : nat) : Prop := i < i0 \/ (i = i0 /\ j < j0).

Lemma agree_weaken {T} h w (P Q : nat -> nat -> Prop) (u v : ktensor T) :
  (forall i j, Q i j -> P i j) -> agree_2d h w P u v -> agree_2d h w Q u v.
Proof. intros H (A1 & A2 & A3 & A4). split; [exact A1|]. split; [exact A2|]. split; [exact A3|]. auto. Qed.

Lemma odd_padding k : Nat.odd k = true -> (k - 1) / 2 + (k - 1) / 2 = k - 1 /\ 1 <= k.
Proof.
  intros H. apply Nat.odd_spec in H. destruct H as [q ->]. replace (2 * q + 1 - 1) with (q * 2) by lia.
  rewrite Nat.div_mul by lia. lia.
Qed.

Lemma causal_conv_2d_agree p W act (mask : bool) h w i0 j0 (vu vv hu hv : ktensor R) :
  Nat.odd (ksize2 p) = true -> 0 < h -> 0 < w ->
  agree_2d h w (above i0) vu vv -> agree_2d h w (before i0 j0) hu hv ->
  exists vu' vv' hu' hv', causal_conv_2d p W act mask vu hu = Ok (vu', hu') /\
    causal_conv_2d p W act mask vv hv = Ok (vv', hv') /\
    agree_2d h w (above i0) vu' vv' /\ agree_2d h w (before i0 (if mask then S j0 else j0)) hu' hv' /\
    features vu' = channels2 p /\ features hu' = channels2 p.
Proof.
  intros Hodd Hh Hw AV AH. unfold causal_conv_2d. cbv zeta.
  destruct (odd_padding _ Hodd) as [Hp Hk]. set (k := ksize2 p) in *. set (f := channels2 p).
  set (N := real_numbers). set (c := 0 <? k - 1).
  assert (Hc : c = false -> k - 1 = 0).
  { unfold c. intros E. apply Nat.ltb_ge in E. lia. }
  destruct (pad_conv_agree N (W 0) f k k c (k - 1) ((k - 1) / 2) ((k - 1) / 2) h w (above i0) (above i0) vu vv)
    as (vu1 & vv1 & -> & -> & AV1 & FV1 & _); auto.
  { intros E. apply Hc in E. rewrite E. auto. }
  { unfold above. intros; lia. }
  cbn [bind].
  destruct (pad_conv_agree N (W 1) f 1 k c 0 (k - 1) 0 h w (before i0 j0) (before i0 j0) hu hv)
    as (x1 & y1 & Ex1 & Ey1 & AX1 & _); auto; try lia.
  { unfold before. intros. lia. }
  rewrite Ex1, Ey1. cbn [bind].
  set (j1 := if mask then S j0 else j0).
  assert (AX2 : agree_2d h w (before i0 j1)
    (if mask then shift_layer N 1 (activate act x1) else activate act x1)
    (if mask then shift_layer N 1 (activate act y1) else activate act y1)).
  { unfold j1. destruct mask.
    - eapply right_shift_agree; [exact Hw| |apply activate_agree; exact AX1]. unfold before. intros; lia.
    - now apply activate_agree. }
  destruct (pad_conv_agree N (W 2) (f / 2) 1 1 false 0 0 0 h w (before i0 j1) (before i0 j1) _ _
    ltac:(auto) ltac:(auto) ltac:(auto) Hh Hw eq_refl eq_refl AX2) as (x3 & y3 & Ex3 & Ey3 & AX3 & _).
  { unfold before. intros. lia. }
  rewrite Ex3, Ey3. cbn [bind].
  assert (AY : agree_2d h w (before i0 j1) (shift_layer N 0 (activate act vu1)) (shift_layer N 0 (activate act vv1))).
  { eapply down_shift_agree; [exact Hh| |apply activate_agree; exact AV1]. unfold above, before. intros; lia. }
  destruct (pad_conv_agree N (W 3) (f / 2) 1 1 false 0 0 0 h w (before i0 j1) (before i0 j1) _ _
    ltac:(auto) ltac:(auto) ltac:(auto) Hh Hw eq_refl eq_refl AY) as (x4 & y4 & Ex4 & Ey4 & AX4 & _).
  { unfold before. intros. lia. }
  rewrite Ex4, Ey4. cbn [bind].
  destruct (concatenate_agree h w (before i0 j1) _ _ _ _ (activate_agree act _ _ _ _ _ AX3) (activate_agree act _ _ _ _ _ AX4))
    as (x5 & y5 & -> & -> & AX5).
  cbn [bind].
  destruct (pad_conv_agree N (W 4) f k k c (k - 1) (k - 1) 0 h w (before i0 j1) (before i0 j1) x5 y5)
    as (x6 & y6 & -> & -> & AX6 & FX6 & _); auto; try lia.
  { unfold before. intros. lia. }
  cbn [bind]. exists vu1, vv1, x6, y6. auto 10.
Qed.

Lemma residual_block_agree p W act h w i0 j0 (vu vv hu hv : ktensor R) :
  Nat.odd (ksize2 p) = true -> 0 < h -> 0 < w ->
  agree_2d h w (above i0) vu vv -> agree_2d h w (before i0 j0) hu hv ->
  features vu = channels2 p -> features hu = channels2 p ->
  exists vu' vv' hu' hv', residual_block p W act vu hu = Ok (vu', hu') /\ residual_block p W act vv hv = Ok (vv', hv') /\
    agree_2d h w (above i0) vu' vv' /\ agree_2d h w (before i0 j0) hu' hv' /\
    features vu' = channels2 p /\ features hu' = channels2 p.
Proof.
  intros Hodd Hh Hw AV AH FV FH. unfold residual_block.
  destruct (causal_conv_2d_agree p (W 0) act false h w i0 j0 vu vv hu hv Hodd Hh Hw AV AH)
    as (vu1 & vv1 & hu1 & hv1 & -> & -> & AV1 & AH1 & FV1 & FH1). cbn [bind fst snd].
  destruct (causal_conv_2d_agree p (W 1) act false h w i0 j0 (activate act vu1) (activate act vv1) (activate act hu1)
    (activate act hv1) Hodd Hh Hw (activate_agree act _ _ _ _ _ AV1) (activate_agree act _ _ _ _ _ AH1))
    as (vu2 & vv2 & hu2 & hv2 & -> & -> & AV2 & AH2 & FV2 & FH2). cbn [bind fst snd].
  destruct (add_agree real_numbers h w _ _ _ _ _ AV AV2) as (v3 & w3 & -> & -> & AV3 & FV3); [congruence|]. cbn [bind].
  destruct (add_agree real_numbers h w _ _ _ _ _ AH AH2) as (v4 & w4 & -> & -> & AV4 & FV4); [congruence|]. cbn [bind].
  exists (activate act v3), (activate act w3), (activate act v4), (activate act w4).
  split; [reflexivity|]. split; [reflexivity|]. split; [now apply activate_agree|]. split; [now apply activate_agree|].
  cbn [activate features]. split; congruence.
Qed.

Lemma residual_blocks_agree p W act h w i0 j0 :
  Nat.odd (ksize2 p) = true -> 0 < h -> 0 < w ->
  forall n b (vu vv hu hv : ktensor R),
  agree_2d h w (above i0) vu vv -> agree_2d h w (before i0 j0) hu hv ->
  features vu = channels2 p -> features hu = channels2 p ->
  exists vu' vv' hu' hv', residual_blocks p W act n b vu hu = Ok (vu', hu') /\
    residual_blocks p W act n b vv hv = Ok (vv', hv') /\
    agree_2d h w (above i0) vu' vv' /\ agree_2d h w (before i0 j0) hu' hv'.
Proof.
  intros Hodd Hh Hw n. induction n as [|n IH]; intros b vu vv hu hv AV AH FV FH; cbn [residual_blocks].
  - exists vu, vv, hu, hv. auto.
  - destruct (residual_block_agree p (fun j => W (2 * b + j + 1)) act h w i0 j0 vu vv hu hv Hodd Hh Hw AV AH FV FH)
      as (vu1 & vv1 & hu1 & hv1 & -> & -> & AV1 & AH1 & FV1 & FH1). cbn [bind fst snd]. apply IH; auto.
Qed.

Lemma conv_net_2d_agree p W w_last act h w i0 j0 (u v : tensor Z) :
  Nat.odd (ksize2 p) = true -> 0 < h -> 0 < w -> tshape u = [h; w] -> tshape v = [h; w] ->
  (forall i j, i < h -> j < w -> before i0 j0 i j -> tval u [i; j] = tval v [i; j]) ->
  exists x y, conv_net_2d p W w_last act u = Ok x /\ conv_net_2d p W w_last act v = Ok y /\
    tshape x = [h; w] /\ (forall l, length (tval x l) = 2) /\
    forall i j, i < h -> j < w -> before i0 (S j0) i j -> tval x [i; j] = tval y [i; j].
Proof.
  intros Hodd Hh Hw Su Sv Huv. unfold conv_net_2d. cbv zeta.
  assert (A : agree_2d h w (before i0 j0) (expand_and_cast IZR u) (expand_and_cast IZR v)).
  { split; [exact Su|]. split; [exact Sv|]. split; [reflexivity|]. intros i j Hi Hj Hb.
    cbn [expand_and_cast kt tval]. now rewrite Huv. }
  assert (A' : agree_2d h w (above i0) (expand_and_cast IZR u) (expand_and_cast IZR v)).
  { eapply agree_weaken; [|exact A]. unfold above, before. intros; lia. }
  destruct (causal_conv_2d_agree p (W 0) act false h w i0 j0 _ _ _ _ Hodd Hh Hw A' A)
    as (vu1 & vv1 & hu1 & hv1 & -> & -> & AV1 & AH1 & FV1 & FH1). cbn [bind fst snd].
  destruct (residual_blocks_agree p W act h w i0 j0 Hodd Hh Hw (depth2 p - 2) 0 (activate act vu1) (activate act vv1)
    (activate act hu1) (activate act hv1) (activate_agree act _ _ _ _ _ AV1) (activate_agree act _ _ _ _ _ AH1) FV1 FH1)
    as (vu2 & vv2 & hu2 & hv2 & -> & -> & AV2 & AH2). cbn [bind fst snd].
  destruct (causal_conv_2d_agree p (W (2 * (depth2 p - 2) + 1)) act true h w i0 j0 _ _ _ _ Hodd Hh Hw AV2 AH2)
    as (vu3 & vv3 & hu3 & hv3 & -> & -> & AV3 & AH3 & _). cbn [bind fst snd].
  destruct (pad_conv_agree real_numbers w_last 4 1 1 false 0 0 0 h w (before i0 (S j0)) (before i0 (S j0)) _ _
    ltac:(auto) ltac:(auto) ltac:(auto) Hh Hw eq_refl eq_refl (activate_agree act _ _ _ _ _ AH3))
    as (x & y & Ex & Ey & AX & FX & LX).
  { unfold before. intros. lia. }
  rewrite Ex, Ey. cbn [bind]. destruct AX as (X1 & X2 & X3 & X4). unfold vector_to_complex_layer.
  rewrite <- X3, FX. replace (4 mod 2 =? 0) with true by reflexivity.
  do 2 eexists. split; [reflexivity|]. split; [reflexivity|]. cbn [tshape tval]. split; [exact X1|]. split.
  - intros l. rewrite vector_to_complex_length; rewrite LX; reflexivity.
  - intros i j Hi Hj Hb. now rewrite X4.
Qed.

Lemma location_2 h w k : location [h; w] k = [k / w; k mod w].
Proof. cbn [location volume fold_right]. rewrite Nat.mul_1_r, Nat.div_1_r. reflexivity. Qed.

Lemma conv_net_2d_causal p W w_last act h w :
  Nat.odd (ksize2 p) = true -> 0 < h -> 0 < w ->
  well_shaped (conv_net_2d p W w_last act) [h; w] /\
  autoregressive (h * w) (seq 0 (h * w)) (conditionals (conv_net_2d p W w_last act) [h; w]).
Proof.
  intros Hodd Hh Hw. split.
  - intros s. destruct (conv_net_2d_agree p W w_last act h w 0 0 (input_array [h; w] s) (input_array [h; w] s))
      as (u & v & E & _ & S1 & L & _); auto; eauto.
  - intros bef k after E s t _ _ A. apply seq_split_before in E. destruct E as (_ & -> & Hi).
    assert (Hd : k = w * (k / w) + k mod w) by (apply Nat.div_mod; lia).
    assert (Hm : k mod w < w) by (apply Nat.mod_upper_bound; lia).
    destruct (conv_net_2d_agree p W w_last act h w (k / w) (k mod w) (input_array [h; w] s) (input_array [h; w] t))
      as (u & v & E1 & E2 & _ & _ & V); auto.
    { intros i j Hi' Hj Hb. cbn [input_array tval]. cbn [row_major volume fold_right].
      rewrite !Nat.mul_1_r, Nat.add_0_r. apply A. apply in_seq. split; [lia|]. unfold before in Hb.
      destruct Hb as [Hb|[-> Hb]]; [|lia].
      assert (i * w + w <= k / w * w) by nia. lia. }
    unfold conditionals. rewrite E1, E2, location_2. apply V.
    + apply Nat.div_lt_upper_bound; lia.
    + exact Hm.
    + unfold before. lia.
Qed.

Lemma concatenate_mismatch {T} (a b : ktensor T) : tshape (kt a) <> tshape (kt b) ->
  concatenate_features a b = Err ValueError.
Proof.
  intros H. unfold concatenate_features, same_shape. destruct (list_eq_dec Nat.eq_dec _ _) as [E|_]; [contradiction|]. reflexivity.
Qed.

(** An even kernel makes the construction fail. *)
Lemma even_kernel_fails p W w_last act h w s :
  Nat.even (ksize2 p) = true -> 0 < ksize2 p -> 0 < h -> 0 < w ->
  conv_net_2d p W w_last act (input_array [h; w] s) = Err ValueError.
Proof.
  intros Hev Hk Hh Hw. apply Nat.even_spec in Hev. destruct Hev as [q Hq].
  assert (Hp : ksize2 p - 1 = 1 + (q - 1) * 2) by lia.
  assert (Hp2 : (ksize2 p - 1) / 2 = q - 1).
  { rewrite Hp, Nat.div_add by lia. reflexivity. }
  unfold conv_net_2d, causal_conv_2d. cbv zeta. set (k := ksize2 p) in *.
  replace (0 <? k - 1) with true by (symmetry; apply Nat.ltb_lt; lia).
  set (x := expand_and_cast IZR (input_array [h; w] s)).
  assert (Sx : tshape (kt x) = [h; w]) by reflexivity.
  destruct (pad_2d real_numbers true (k - 1) ((k - 1) / 2) ((k - 1) / 2) h w x ltac:(discriminate) Sx) as (Pu & _ & _).
  destruct (pad_2d real_numbers true 0 (k - 1) 0 h w x ltac:(discriminate) Sx) as (Pv & _ & _).
  cbv iota in Pu, Pv.
  destruct (Nat.eq_dec w 1) as [W1|W1].
  - (* the vertical convolution does not fit *)
    unfold conv_layer at 1. unfold conv_output, conv_of. cbn [tshape kernel_size strides dilation_rate map].
    rewrite Pu. cbn [conv_shape]. rewrite Hp2. unfold conv_size at 2.
    destruct (Nat.ltb_spec (w + (q - 1 + (q - 1))) ((k - 1) * 1 + 1)); [|lia].
    cbn [existsb]. rewrite orb_comm. cbn [Nat.eqb orb bind]. reflexivity.
  - destruct (conv_2d_ok real_numbers (W 0 0) (channels2 p) k k h (w - 1)
      (zero_pad real_numbers [(k - 1, 0); ((k - 1) / 2, (k - 1) / 2)] x)) as [-> T1]; try lia.
    { rewrite Pu. f_equal. f_equal. lia. }
    cbn [bind].
    destruct (conv_2d_ok real_numbers (W 0 1) (channels2 p) 1 k h w (zero_pad real_numbers [(0, 0); (k - 1, 0)] x))
      as [-> T2]; try lia.
    { rewrite Pv. f_equal. f_equal. lia. }
    cbn [bind].
    match goal with |- context [conv_layer real_numbers (W 0 2) _ _ _ ?a] =>
      destruct (conv_2d_ok real_numbers (W 0 2) (channels2 p / 2) 1 1 h w a) as [-> T3]; try lia end.
    { cbn [activate kt tshape]. rewrite T2. f_equal; [lia|f_equal; lia]. }
    cbn [bind].
    match goal with |- context [conv_layer real_numbers (W 0 3) _ _ _ ?a] =>
      destruct (conv_2d_ok real_numbers (W 0 3) (channels2 p / 2) 1 1 h (w - 1) a) as [-> T4]; try lia end.
    { cbn [shift_layer activate kt]. unfold shift, concat2, constant_like, take_first. cbn [tshape].
      rewrite T1. cbn [upd nth]. f_equal; [lia|f_equal; lia]. }
    cbn [bind].
    match goal with |- context [concatenate_features ?a ?b] => rewrite (concatenate_mismatch a b) end; [reflexivity|].
    intros E. unfold activate in T3, T4, E. cbn [kt tshape] in T3, T4, E.
    assert (E' : [h; w] = [h; w - 1]) by (etransitivity; [symmetry; exact T3|]; etransitivity; [exact E|]; exact T4).
    injection E'. lia.
Qed.

Lemma machine_normalised (machine : tensor Z -> res (tensor (list C))) shape order :
  visits_once (volume shape) order -> well_shaped machine shape ->
  autoregressive (volume shape) order (conditionals machine shape) ->
  Rsum (fun s => Cnorm2 (Cexp (predictions (conditionals machine shape) s))) (spin_configs (volume shape)) = 1%R.
Proof.
  intros HV HW HA. apply (normalised_wave_function (volume shape) order); auto.
  intros s i. unfold conditionals. destruct (HW s) as (out & -> & _ & L). apply L.
Qed.

Lemma simple_conv_net_1d_normalised p W act n : 1 <= ksize p -> 0 < n ->
  Rsum (fun s => Cnorm2 (Cexp (predictions (conditionals (simple_conv_net_1d p W act) [n]) s))) (spin_configs n) = 1%R.
Proof.
  intros Hk Hn. destruct (simple_conv_net_1d_causal p W act n Hk Hn) as [HW HA].
  assert (E : volume [n] = n) by (unfold volume; cbn [fold_right]; lia).
  rewrite <- E at 1. apply (machine_normalised _ _ (seq 0 n)); rewrite ?E; auto using seq_visits_once.
Qed.

Lemma complex_conv_net_1d_normalised p W act n : 1 <= ksize p -> 0 < n ->
  Rsum (fun s => Cnorm2 (Cexp (predictions (conditionals (complex_conv_net_1d p W act) [n]) s))) (spin_configs n) = 1%R.
Proof.
  intros Hk Hn. destruct (complex_conv_net_1d_causal p W act n Hk Hn) as [HW HA].
  assert (E : volume [n] = n) by (unfold volume; cbn [fold_right]; lia).
  rewrite <- E at 1. apply (machine_normalised _ _ (seq 0 n)); rewrite ?E; auto using seq_visits_once.
Qed.

Lemma conv_net_2d_normalised p W w_last act h w : Nat.odd (ksize2 p) = true -> 0 < h -> 0 < w ->
  Rsum (fun s => Cnorm2 (Cexp (predictions (conditionals (conv_net_2d p W w_last act) [h; w]) s))) (spin_configs (h * w)) = 1%R.
Proof.
  intros Hk Hh Hw. destruct (conv_net_2d_causal p W w_last act h w Hk Hh Hw) as [HW HA].
  assert (E : volume [h; w] = h * w) by (unfold volume; cbn [fold_right]; lia).
  rewrite <- E. apply (machine_normalised _ _ (seq 0 (h * w))); rewrite ?E; auto using seq_visits_once.
Qed.

Lemma custom_ordering_normalised shape o p W act : 1 <= ksize p -> 0 < volume shape -> ordering_of shape o ->
  Rsum (fun s => Cnorm2 (Cexp (predictions (conditionals (custom_ordering_net o p W act) shape) s)))
    (spin_configs (volume shape)) = 1%R.
Proof.
  intros Hk Hn HO. destruct (custom_ordering_causal shape o p W act Hk Hn HO) as [HW HA].
  apply (machine_normalised _ _ (map (row_major shape) o)); auto using ordering_visits_once.
Qed.
