(** Lemmas about the receptive fields of the convolutional machines. *)
From Coq Require Import List ZArith Arith Bool Reals Lia Lra.
From Verif Require Import Base Cplx OrderingModel OrderingSpec OrderingProofs TensorModel AutoregressiveModel
  AutoregressiveSpec AutoregressiveProofs TopologyProofs MachinesModel MachinesSpec MachinesProofs ComplexModel ComplexProofs ReceptiveSpec.
Import ListNotations.

(** * Nothing outside the receptive field matters *)

(** Agreement on the sites in [P]. *)
Definition agree_in {T} (n : nat) (P : nat -> Prop) (u v : ktensor T) : Prop :=
  tshape (kt u) = [n] /\ tshape (kt v) = [n] /\ features u = features v /\ forall i, i < n -> P i -> tval (kt u) [i] = tval (kt v) [i].

Lemma causal_conv_in {T} (N : numbers T) (w : weights T) f k d act skip_u skip_v n (P Q : nat -> Prop) (u v : ktensor T) :
  1 <= k -> 1 <= d -> 0 < n -> agree_in n P u v -> (forall x a, Q x -> a < k -> a * d <= x -> P (x - a * d)) ->
  match skip_u, skip_v with
  | None, None => True
  | Some a, Some b => agree_in n Q a b /\ features a = f
  | _, _ => False
  end ->
  exists u' v', causal_conv_1d N w u f k d act skip_u = Ok u' /\ causal_conv_1d N w v f k d act skip_v = Ok v' /\
    agree_in n Q u' v' /\ features u' = f.
Proof.
  intros Hk Hd Hn (Hu & Hv & Hf & Huv) HPQ Hskip.
  set (pd := k + (k - 1) * (d - 1) - 1).
  assert (Hpd : pd = (k - 1) * d) by (unfold pd; destruct k; [lia|]; destruct d; [lia|]; cbn [Nat.sub Nat.mul]; nia).
  set (pu := if 0 <? pd then zero_pad N [(pd, 0)] u else u).
  set (pv := if 0 <? pd then zero_pad N [(pd, 0)] v else v).
  assert (Su : tshape (kt pu) = [n + (k - 1) * d]).
  { rewrite <- Hpd. unfold pu. destruct (Nat.ltb_spec 0 pd); [apply pad_1d_shape; auto|]. rewrite Hu. f_equal. lia. }
  assert (Sv : tshape (kt pv) = [n + (k - 1) * d]).
  { rewrite <- Hpd. unfold pv. destruct (Nat.ltb_spec 0 pd); [apply pad_1d_shape; auto|]. rewrite Hv. f_equal. lia. }
  assert (Fuv : features pu = features pv) by (unfold pu, pv; destruct (0 <? pd); cbn [zero_pad features]; auto).
  assert (Vuv : forall i, i < n + pd -> (pd <= i -> P (i - pd)) -> tval (kt pu) [i] = tval (kt pv) [i]).
  { intros i Hi Hi'. unfold pu, pv. destruct (Nat.ltb_spec 0 pd).
    - rewrite (pad_1d_value N pd n u i), (pad_1d_value N pd n v i) by auto. rewrite Hf.
      destruct (Nat.ltb_spec i pd); [reflexivity|]. apply Huv; [lia|auto].
    - replace (i - pd) with i in Hi' by lia. apply Huv; [lia|apply Hi'; lia]. }
  destruct (conv_1d_ok N w f k d n pu Hk Hn Su) as [Cu Tu].
  destruct (conv_1d_ok N w f k d n pv Hk Hn Sv) as [Cv Tv].
  set (cu := {| kt := conv_output (zero N) (plus N) (times N) (conv_of w [k] [d] (features pu) f) (kt pu); features := f |}) in *.
  set (cv := {| kt := conv_output (zero N) (plus N) (times N) (conv_of w [k] [d] (features pv) f) (kt pv); features := f |}) in *.
  assert (Acv : agree_in n Q cu cv).
  { split; [exact Tu|]. split; [exact Tv|]. split; [reflexivity|]. intros i Hi HQ. unfold cu, cv. cbn [kt].
    rewrite Fuv. apply conv_value_ext. cbn [conv_of kernel_size]. intros l Hl.
    destruct (raster_1 k l Hl) as (a & -> & Ha). unfold conv_loc, conv_of. cbn [strides dilation_rate map map2]. rewrite Nat.mul_1_r.
    assert (E : (k - 1 - a) * d + a * d = pd) by (rewrite Hpd, <- Nat.mul_add_distr_r; f_equal; lia).
    apply Vuv; [lia|]. intros L. replace (i + a * d - pd) with (i - (k - 1 - a) * d) by lia. apply HPQ; [exact HQ|lia|lia]. }
  unfold causal_conv_1d. fold pd. fold pu. fold pv. rewrite Cu, Cv. cbn [bind].
  assert (G : exists u1 v1, match skip_u with None => Ok cu | Some s => add_layer N cu s end = Ok u1 /\
                match skip_v with None => Ok cv | Some s => add_layer N cv s end = Ok v1 /\ agree_in n Q u1 v1 /\
                features u1 = f).
  { destruct skip_u as [a|], skip_v as [b|]; try contradiction.
    - destruct Hskip as [(Ha & Hb & Hfab & Hab) Hfa].
      destruct Acv as (A1 & A2 & A3 & A4).
      unfold add_layer. rewrite A1, A2, Ha, Hb, !same_shape_refl.
      replace (features cu =? features a) with true by (symmetry; apply Nat.eqb_eq; auto).
      replace (features cv =? features b) with true by (symmetry; apply Nat.eqb_eq; rewrite <- Hfab; auto).
      cbn [andb]. do 2 eexists. split; [reflexivity|]. split; [reflexivity|]. split; [|reflexivity].
      split; [reflexivity|]. split; [reflexivity|]. split; [exact A3|]. intros i Hi Hi'. cbn [kt tval].
      rewrite A4, Hab by auto. reflexivity.
    - exists cu, cv. auto. }
  destruct G as (u1 & v1 & -> & -> & A & F). cbn [bind].
  destruct act as [a|]; [|exists u1, v1; auto].
  do 2 eexists. split; [reflexivity|]. split; [reflexivity|]. split; [|exact F].
  destruct A as (A1 & A2 & A3 & A4). split; [exact A1|]. split; [exact A2|]. split; [exact A3|].
  intros i Hi Hi'. cbn [activate kt tval]. rewrite A4; auto.
Qed.

Lemma agree_in_weaken {T} n (P Q : nat -> Prop) (u v : ktensor T) : (forall i, Q i -> P i) -> agree_in n P u v -> agree_in n Q u v.
Proof. intros H (A & B & C & D). split; [exact A|]. split; [exact B|]. split; [exact C|]. auto. Qed.

(** The dilation rates. *)
Lemma next_rate p i : next_dilation p (rate p i) = rate p (S i).
Proof.
  unfold next_dilation, rate. destruct (use_dilation p); [|reflexivity]. destruct (max_dilation_rate p) as [m|]; [|reflexivity].
  destruct (Nat.le_gt_cases (Nat.log2_up m) i) as [L|L].
  - rewrite !Nat.min_r by lia. destruct (Nat.ltb_spec (2 ^ Nat.log2_up m) m) as [Q|Q]; [|reflexivity]. exfalso.
    destruct (Nat.le_gt_cases m 1) as [M|M]; [rewrite Nat.log2_up_eqn0 in Q by exact M; change (2 ^ 0) with 1 in Q; lia|]. pose proof (Nat.log2_up_spec m M). lia.
  - rewrite !Nat.min_l by lia. destruct (Nat.le_gt_cases m 1) as [M|M]; [rewrite Nat.log2_up_eqn0 in L by exact M; lia|].
    pose proof (Nat.log2_up_spec m M) as [Q _]. assert (2 ^ i <= 2 ^ Nat.pred (Nat.log2_up m)) by (apply Nat.pow_le_mono_r; lia).
    destruct (Nat.ltb_spec (2 ^ i) m); [|lia]. rewrite Nat.pow_succ_r'. lia.
Qed.
Lemma rate_0 p : rate p 0 = 1.
Proof. unfold rate. destruct (use_dilation p); [|reflexivity]. destruct (max_dilation_rate p); reflexivity. Qed.
Lemma rate_pos p i : 1 <= rate p i.
Proof. induction i as [|i IH]; [rewrite rate_0; lia|]. rewrite <- next_rate. now apply next_dilation_pos. Qed.
Definition total (p : params_1d) (layers : nat) : nat := fold_right Nat.add 0 (map (rate p) (seq 0 layers)).
Lemma total_S p l : total p (S l) = total p l + rate p l.
Proof.
  unfold total. rewrite seq_S, map_app, fold_right_app. cbn [map fold_right]. rewrite Nat.add_0_r. cbn [Nat.add].
  generalize (map (rate p) (seq 0 l)) as q. induction q as [|a q IH]; cbn [fold_right]; [lia|]. rewrite IH. lia.
Qed.
Lemma rate_le p l : rate p l <= total p l + 1.
Proof.
  induction l as [|l IH]; [rewrite rate_0; cbn; lia|]. rewrite total_S. assert (rate p (S l) <= 2 * rate p l); [|lia].
  rewrite <- next_rate. unfold next_dilation. destruct (use_dilation p); [|lia]. destruct (max_dilation_rate p) as [m|]; [|lia]. destruct (rate p l <? m); lia.
Qed.

(** The sites that are not reached from [S] within the distance [r]. *)
Definition untouched (S : nat -> Prop) (r x : nat) : Prop := forall j, S j -> ~ (j <= x <= j + r).

Lemma conv_stack_in {T} (N : numbers T) p (W : nat -> weights T) act skips n S :
  1 <= ksize p -> 0 < n ->
  forall k i (u v : ktensor T), agree_in n (untouched S ((ksize p - 1) * total p i)) u v -> (0 < i -> features u = num_of_channels p) ->
  exists u' v', conv_stack N p W act skips k i (rate p i) u = Ok u' /\ conv_stack N p W act skips k i (rate p i) v = Ok v' /\
    agree_in n (untouched S ((ksize p - 1) * total p (i + k))) u' v'.
Proof.
  intros Hk Hn k. induction k as [|k IH]; intros i u v A F; cbn [conv_stack].
  - exists u, v. rewrite Nat.add_0_r. auto.
  - assert (M : forall x, untouched S ((ksize p - 1) * total p (Datatypes.S i)) x -> untouched S ((ksize p - 1) * total p i) x).
    { intros x U j Sj [L1 L2]. apply (U j Sj). rewrite total_S, Nat.mul_add_distr_l. split; [exact L1|]. eapply Nat.le_trans; [exact L2|].
      apply Nat.add_le_mono_l, Nat.le_add_r. }
    destruct (causal_conv_in N (W i) (num_of_channels p) (ksize p) (rate p i) act
      (if skips && (0 <? i) then Some u else None) (if skips && (0 <? i) then Some v else None) n _
      (untouched S ((ksize p - 1) * total p (Datatypes.S i))) u v Hk (rate_pos p i) Hn A)
      as (u' & v' & -> & -> & A' & F').
    { intros x a U Ha L j Sj [L1 L2]. apply (U j Sj). rewrite total_S, Nat.mul_add_distr_l.
      assert (a * rate p i <= (ksize p - 1) * rate p i) by (apply Nat.mul_le_mono_r; lia). lia. }
    { destruct skips; cbn [andb]; [|exact Logic.I]. destruct (Nat.ltb_spec 0 i); [|exact Logic.I]. split; [|auto]. now apply (agree_in_weaken _ _ _ _ _ M). }
    cbn [bind]. rewrite next_rate. replace (i + Datatypes.S k) with (Datatypes.S i + k) by lia. apply IH; auto.
Qed.

Lemma shift_in {T} (N : numbers T) n (P Q : nat -> Prop) (u v : ktensor T) :
  0 < n -> (forall x, Q (S x) -> P x) -> agree_in n P u v -> agree_in n Q (shift_layer N 0 u) (shift_layer N 0 v).
Proof.
  intros Hn H (A1 & A2 & A3 & A4). unfold shift_layer, shift, concat2, constant_like, take_first.
  split; [|split; [|split]]; cbn [kt tshape tval features]; rewrite ?A1, ?A2; cbn [upd nth]; auto.
  - f_equal. lia.
  - f_equal. lia.
  - intros i Hi Hi'. cbn [nth upd]. rewrite A3. destruct (Nat.ltb_spec i 1); [reflexivity|]. apply A4; [lia|]. apply H. now replace (Datatypes.S (i - 1)) with i by lia.
Qed.

Definition outputs_in (n : nat) (P : nat -> Prop) (a b : res (tensor (list C))) : Prop :=
  exists u v, a = Ok u /\ b = Ok v /\ forall i, i < n -> P i -> tval u [i] = tval v [i].

(** Sites that the changed sites [S] do not influence after the shift. *)
Definition unseen (S : nat -> Prop) (r x : nat) : Prop := forall j, S j -> ~ (j < x <= j + r).

Lemma conv_net_1d_in p W act n S u v : 1 <= ksize p -> 0 < n -> agree_in n (fun x => ~ S x) u v ->
  outputs_in n (unseen S (reach p (depth p - 2))) (conv_net_1d p W act u) (conv_net_1d p W act v).
Proof.
  intros Hk Hn A. unfold conv_net_1d.
  destruct (conv_stack_in real_numbers p W act (add_skip_connections p) n S Hk Hn (depth p - 2) 0 u v)
    as (u1 & v1 & E1 & E2 & A1); [|lia|].
  { eapply agree_in_weaken; [|exact A]. intros x U Sx. apply (U x Sx). split; [lia|apply Nat.le_add_r]. }
  rewrite rate_0 in E1, E2. rewrite E1, E2. cbn [bind Nat.add] in *. apply (shift_in real_numbers n _ (unseen S (reach p (depth p - 2)))) in A1; [|exact Hn|].
  2: { intros x U j Sj [L1 L2]. apply (U j Sj). unfold reach. fold (total p (depth p - 2)). lia. }
  set (u2 := shift_layer real_numbers 0 u1) in *. set (v2 := shift_layer real_numbers 0 v1) in *.
  unfold causal_conv_1d. cbn [Nat.sub Nat.mul Nat.add Nat.ltb Nat.leb].
  destruct A1 as (S1 & S2 & F & V).
  destruct (conv_1d_ok real_numbers (W (depth p - 2)) 4 1 1 n u2) as [-> Tu]; [lia|auto|rewrite S1; f_equal; lia|].
  destruct (conv_1d_ok real_numbers (W (depth p - 2)) 4 1 1 n v2) as [-> Tv]; [lia|auto|rewrite S2; f_equal; lia|].
  cbn [bind]. unfold vector_to_complex_layer. cbn [features kt].
  replace (4 mod 2 =? 0) with true by reflexivity.
  do 2 eexists. split; [reflexivity|]. split; [reflexivity|]. cbn [tshape tval].
  intros i Hi Hi'. f_equal. rewrite F. apply conv_value_ext. cbn [conv_of kernel_size]. intros l Hl.
  destruct (raster_1 1 l Hl) as (a & -> & Ha). unfold conv_loc, conv_of. cbn [strides dilation_rate map map2].
  replace (i * 1 + a * 1) with i by lia. now apply V.
Qed.

Lemma complex_conv_net_1d_in p W act n S (u v : tensor Z) : 1 <= ksize p -> 0 < n -> tshape u = [n] -> tshape v = [n] ->
  (forall i, i < n -> ~ S i -> tval u [i] = tval v [i]) ->
  outputs_in n (unseen S (reach p (depth p - 1))) (complex_conv_net_1d p W act u) (complex_conv_net_1d p W act v).
Proof.
  intros Hk Hn Hu Hv Huv. unfold complex_conv_net_1d.
  set (of_Z := fun z => RtoC (IZR z)).
  destruct (conv_stack_in complex_numbers p W act false n S Hk Hn (depth p - 1) 0
    (expand_and_cast of_Z u) (expand_and_cast of_Z v)) as (u1 & v1 & E1 & E2 & A1); [|lia|].
  { split; [exact Hu|]. split; [exact Hv|]. split; [reflexivity|]. intros i Hi U.
    cbn [expand_and_cast kt tval]. rewrite Huv; [reflexivity|exact Hi|]. intros Sx. apply (U i Sx). split; [lia|apply Nat.le_add_r]. }
  rewrite rate_0 in E1, E2. rewrite E1, E2. cbn [bind Nat.add] in *. apply (shift_in complex_numbers n _ (unseen S (reach p (depth p - 1)))) in A1; [|exact Hn|].
  2: { intros x U j Sj [L1 L2]. apply (U j Sj). unfold reach. fold (total p (depth p - 1)). lia. }
  set (u2 := shift_layer complex_numbers 0 u1) in *. set (v2 := shift_layer complex_numbers 0 v1) in *.
  unfold causal_conv_1d. cbn [Nat.sub Nat.mul Nat.add Nat.ltb Nat.leb].
  destruct A1 as (S1 & S2 & F & V).
  destruct (conv_1d_ok complex_numbers (W (depth p - 1)) 2 1 1 n u2) as [-> Tu]; [lia|auto|rewrite S1; f_equal; lia|].
  destruct (conv_1d_ok complex_numbers (W (depth p - 1)) 2 1 1 n v2) as [-> Tv]; [lia|auto|rewrite S2; f_equal; lia|].
  cbn [bind kt].
  do 2 eexists. split; [reflexivity|]. split; [reflexivity|].
  intros i Hi Hi'. rewrite F. apply conv_value_ext. cbn [conv_of kernel_size]. intros l Hl.
  destruct (raster_1 1 l Hl) as (a & -> & Ha). unfold conv_loc, conv_of. cbn [strides dilation_rate map map2].
  replace (i * 1 + a * 1) with i by lia. now apply V.
Qed.

(** * Everything inside the receptive field matters for some weights *)

Lemma Rsum_lt {A} (f g : A -> R) l a : (forall x, In x l -> (f x <= g x)%R) -> In a l -> (f a < g a)%R -> (Rsum f l < Rsum g l)%R.
Proof.
  intros L. induction l as [|b l IH]; intros Hi H; [destruct Hi|destruct Hi as [E|Hi]; subst].
  - rewrite !Rsum_cons. assert (Rsum f l <= Rsum g l)%R by (apply Rsum_le; intros; apply L; now right). lra.
  - rewrite !Rsum_cons. specialize (L b (or_introl eq_refl)) as Lb. assert (Rsum f l < Rsum g l)%R; [|lra]. apply IH; [intros; apply L; now right|exact Hi|exact H].
Qed.

Lemma map_repeat {A B} (f : A -> B) x n : map f (repeat x n) = repeat (f x) n.
Proof. induction n; cbn [repeat map]; congruence. Qed.
Lemma map_const_repeat {A B} (x : B) (l : list A) : map (fun _ => x) l = repeat x (length l).
Proof. induction l; cbn [map length repeat]; congruence. Qed.
Lemma Forall2_length {A B} (P : A -> B -> Prop) a b : Forall2 P a b -> length a = length b.
Proof. induction 1; cbn [length]; congruence. Qed.

Definition addup (a : list R) : R := Rsum (fun x => x) a.
Lemma addup_le a b : Forall2 Rle a b -> (addup a <= addup b)%R.
Proof. unfold addup. induction 1; rewrite ?Rsum_cons; [unfold Rsum; cbn; lra|]. lra. Qed.
Lemma addup_app a b : addup (a ++ b) = (addup a + addup b)%R.
Proof. apply Rsum_app. Qed.
Lemma addup_lower lo a : Forall (Rle lo) a -> (INR (length a) * lo <= addup a)%R.
Proof.
  unfold addup. induction 1 as [|x l H H' IH]; [unfold Rsum; cbn; lra|]. rewrite Rsum_cons. cbn [length]. rewrite S_INR. lra.
Qed.

Section Positive.
  Context {T : Type} (N : numbers T) (emb : R -> T).
  Context (emb_0 : emb 0%R = zero N) (emb_plus : forall x y, plus N (emb x) (emb y) = emb (x + y)%R)
    (emb_times : forall x y, times N (emb x) (emb y) = emb (x * y)%R).

  (** Two feature vectors, both of real numbers not below [lo], the first nowhere above the second, and smaller in total if [strict]. *)
  Definition rel (lo : R) (f : nat) (strict : Prop) (x y : list T) : Prop :=
    exists a b, x = map emb a /\ y = map emb b /\ length a = f /\ Forall2 Rle a b /\ Forall (Rle lo) a /\ (strict -> (addup a < addup b)%R).

  Lemma rel_weaken lo lo' f (s s' : Prop) x y : (lo' <= lo)%R -> (s' -> s) -> rel lo f s x y -> rel lo' f s' x y.
  Proof.
    intros L H (a & b & -> & -> & Ha & F & Lo & S). exists a, b. split; [reflexivity|]. split; [reflexivity|]. split; [exact Ha|]. split; [exact F|].
    split; [|auto]. eapply Forall_impl; [|exact Lo]. intros z Hz. lra.
  Qed.
  Lemma rel_zero f : rel 0 f False (repeat (zero N) f) (repeat (zero N) f).
  Proof.
    exists (repeat 0%R f), (repeat 0%R f). rewrite <- emb_0, map_repeat, repeat_length. split; [reflexivity|]. split; [reflexivity|]. split; [reflexivity|].
    split; [|split; [|tauto]]; induction f; cbn [repeat]; constructor; auto; lra.
  Qed.
  Lemma rel_app lo f f' s s' x y x' y' : rel lo f s x y -> rel lo f' s' x' y' -> rel lo (f + f') (s \/ s') (x ++ x') (y ++ y').
  Proof.
    intros (a & b & -> & -> & Ha & F & Lo & S) (a' & b' & -> & -> & Ha' & F' & Lo' & S'). exists (a ++ a'), (b ++ b').
    rewrite !map_app, app_length. split; [reflexivity|]. split; [reflexivity|]. split; [lia|]. split; [now apply Forall2_app|].
    split; [now apply Forall_app|]. rewrite !addup_app. pose proof (addup_le _ _ F). pose proof (addup_le _ _ F'). intros [H1|H1]; [specialize (S H1)|specialize (S' H1)]; lra.
  Qed.
  Lemma rel_add lo lo' f s s' x y x' y' : rel lo f s x y -> rel lo' f s' x' y' -> rel (lo + lo') f (s \/ s') (map2 (plus N) x x') (map2 (plus N) y y').
  Proof.
    intros (a & b & -> & -> & Ha & F & Lo & S) (a' & b' & -> & -> & Ha' & F' & Lo' & S').
    exists (map2 Rplus a a'), (map2 Rplus b b').
    assert (E : forall u v, map2 (plus N) (map emb u) (map emb v) = map emb (map2 Rplus u v)).
    { induction u as [|h u IH]; intros [|h' v]; cbn [map map2]; [reflexivity..|]. now rewrite emb_plus, IH. }
    rewrite !E. split; [reflexivity|]. split; [reflexivity|]. split; [rewrite map2_length; lia|].
    assert (A : forall u v, length u = length v -> addup (map2 Rplus u v) = (addup u + addup v)%R).
    { unfold addup. induction u as [|h u IH]; intros [|h' v] L; cbn [length map2] in *; try lia; [unfold Rsum; cbn; lra|]. rewrite !Rsum_cons, IH by lia. lra. }
    pose proof (Forall2_length _ _ _ F) as LF. pose proof (Forall2_length _ _ _ F') as LF'.
    split; [|split].
    - clear - F F' Ha Ha'. subst f. symmetry in Ha'. revert a' b' F' Ha'. induction F as [|h h' t t' H1 H2 IH]; intros a' b' F' L; inversion F'; subst; cbn [length] in *; try lia; cbn [map2]; constructor.
      + lra.
      + apply IH; [assumption|lia].
    - clear - Lo Lo'. revert a' Lo'. induction Lo as [|h t H1 H2 IH]; intros a' Lo'; [constructor|]. destruct Lo' as [|h' t' H1' H2']; [constructor|]. cbn [map2]. constructor; [lra|auto].
    - rewrite !A by lia. pose proof (addup_le _ _ F). pose proof (addup_le _ _ F'). intros [H1|H1]; [specialize (S H1)|specialize (S' H1)]; lra.
  Qed.
  Lemma rel_act act f s x y : increasing_activation emb act -> rel 0 f s x y -> rel 0 f s (act x) (act y).
  Proof.
    intros (g & G & G0 & G1) (a & b & -> & -> & Ha & F & Lo & S).
    assert (Lb : Forall (Rle 0) b).
    { clear - F Lo. induction F; inversion Lo; subst; constructor; auto. lra. }
    exists (map g a), (map g b). rewrite !G by assumption. split; [reflexivity|]. split; [reflexivity|]. split; [now rewrite map_length|].
    split; [|split].
    - clear - F Lo G1. induction F as [|h h' t t' H1 H2 IH]; inversion Lo; subst; cbn [map]; constructor; auto.
      destruct (Rle_lt_or_eq_dec _ _ H1) as [Q| ->]; [left; apply G1; lra|lra].
    - clear - Lo G0. induction Lo; cbn [map]; constructor; auto.
    - intros H. specialize (S H). clear - F Lo G1 S. revert S. unfold addup. induction F as [|h h' t t' H1 H2 IH]; inversion Lo; subst; cbn [map]; [unfold Rsum; cbn; lra|].
      rewrite !Rsum_cons. intros Q.
      assert (P : (g h <= g h')%R) by (destruct (Rle_lt_or_eq_dec _ _ H1) as [Q'| ->]; [left; apply G1; lra|lra]).
      assert (P' : (Rsum (fun x => x) (map g t) <= Rsum (fun x => x) (map g t'))%R).
      { apply addup_le. clear - H2 H4 G1. induction H2 as [|h h' t t' H1 H2 IH]; inversion H4; subst; cbn [map]; constructor; auto.
        destruct (Rle_lt_or_eq_dec _ _ H1) as [Q| ->]; [left; apply G1; lra|lra]. }
      destruct (Rlt_le_dec h h') as [R1|R1]; [assert (g h < g h')%R by (apply G1; lra); lra|].
      assert (Rsum (fun x => x) (map g t) < Rsum (fun x => x) (map g t'))%R by (apply IH; auto; lra). lra.
  Qed.

  (** Kernels that only depend on the filter, one bias for all filters. *)
  Definition flat_weights (f : nat) (e : nat -> R) (b : R) : weights T := {| kernel_at := fun idx => emb (e (idx mod f)); bias_at := fun _ => emb b |}.

  Lemma fold_emb l : fold_right (plus N) (zero N) (map emb l) = emb (addup l).
  Proof. unfold addup. induction l as [|a l IH]; cbn [map fold_right]; [now rewrite <- emb_0|]. now rewrite IH, emb_plus, Rsum_cons. Qed.

  Lemma flat_conv_value ks dil ch f e b (t : tensor (list T)) (val : loc -> list R) l :
    (forall w, In w (raster ks) -> tval t (conv_loc (conv_of (flat_weights f e b) ks dil ch f) l w) = map emb (val w) /\ length (val w) = ch) ->
    tval (conv_output (zero N) (plus N) (times N) (conv_of (flat_weights f e b) ks dil ch f) t) l =
    map emb (map (fun fi => Rsum (fun w => addup (val w)) (raster ks) * e fi + b)%R (range f)).
  Proof.
    intros H. unfold conv_output. cbn [tval]. set (c := conv_of (flat_weights f e b) ks dil ch f).
    replace (activation c) with (fun v : list T => v) by reflexivity. replace (bias c) with (Some (map (bias_at (flat_weights f e b)) (range f))) by reflexivity.
    replace (filters c) with f by reflexivity. replace (channels c) with ch by reflexivity. replace (kernel_size c) with ks by reflexivity. cbn beta iota.
    assert (E : forall fi, fi < f -> fold_right (plus N) (zero N) (flat_map (fun w => map (fun k => times N (nth k (tval t (conv_loc c l w)) (zero N))
        (nth (flat_loop (w ++ [k; fi]) (ks ++ [ch; f]) 0) (kernel c) (zero N))) (range ch)) (raster ks)) = emb (Rsum (fun w => addup (val w)) (raster ks) * e fi)%R).
    { intros fi Hfi.
      replace (flat_map _ (raster ks)) with (map emb (flat_map (fun w => map (fun x => x * e fi)%R (val w)) (raster ks))).
      - rewrite fold_emb. f_equal. unfold addup. rewrite Rsum_flat_map, <- Rsum_scal_r. apply Rsum_ext. intros w _. now rewrite Rsum_map, Rsum_scal_r.
      - rewrite !flat_map_concat_map, concat_map. f_equal. rewrite map_map. apply map_ext_in. intros w Hw. destruct (H w Hw) as [Hv Hl]. fold c in Hv. rewrite Hv.
        rewrite map_map. rewrite <- (map_nth_range (val w) 0%R) at 1. rewrite map_map, Hl. apply map_ext_in. intros k Hk. apply in_range in Hk.
        rewrite <- emb_times. f_equal; [rewrite <- emb_0; now rewrite map_nth|].
        apply in_raster in Hw. rewrite flat_loop_app2, flat_loop_acc by exact Hw. cbn [Nat.mul Nat.add]. pose proof (row_major_lt _ _ Hw) as B.
        unfold c, conv_of. cbn [kernel]. set (idx := (row_major ks w * ch + k) * f + fi).
        assert (Bi : idx < fold_right Nat.mul 1 (ks ++ [ch; f])).
        { fold (volume (ks ++ [ch; f])). rewrite volume_app. replace (volume [ch; f]) with (ch * f) by (unfold volume; cbn [fold_right]; lia). unfold idx.
          assert (row_major ks w * ch + k + 1 <= volume ks * ch) by nia. rewrite Nat.mul_assoc. nia. }
        rewrite (nth_indep _ _ (kernel_at (flat_weights f e b) 0)) by (rewrite map_length; unfold range; now rewrite seq_length).
        rewrite map_nth. unfold range. rewrite seq_nth by exact Bi. cbn [flat_weights kernel_at Nat.add]. do 2 f_equal. unfold idx.
        rewrite Nat.add_comm, Nat.mod_add by lia. now rewrite Nat.mod_small. }
    assert (G : forall m, (forall x, In x m -> x < f) -> map2 (plus N) (map (fun fi => fold_right (plus N) (zero N) (flat_map (fun w => map (fun k => times N (nth k (tval t (conv_loc c l w)) (zero N))
        (nth (flat_loop (w ++ [k; fi]) (ks ++ [ch; f]) 0) (kernel c) (zero N))) (range ch)) (raster ks))) m) (map (bias_at (flat_weights f e b)) m) =
      map emb (map (fun fi => Rsum (fun w => addup (val w)) (raster ks) * e fi + b)%R m)).
    { induction m as [|fi m IH]; intros Hm; [reflexivity|]. cbn [map map2]. rewrite IH by (intros; apply Hm; now right). f_equal.
      rewrite E by (apply Hm; now left). cbn [flat_weights bias_at]. apply emb_plus. }
    apply G. intros x Hx. now apply in_range.
  Qed.

  (** One output location of a convolution whose kernel is one everywhere. *)
  Lemma rel_conv ks dil ch f b (t u : tensor (list T)) l (s : loc -> Prop) :
    1 <= f -> (INR (length (raster ks)) * INR ch + 1 <= b)%R ->
    (forall w, In w (raster ks) -> rel (-1) ch (s w) (tval t (conv_loc (conv_of (flat_weights f (fun _ => 1%R) b) ks dil ch f) l w))
       (tval u (conv_loc (conv_of (flat_weights f (fun _ => 1%R) b) ks dil ch f) l w))) ->
    rel 1 f (exists w, In w (raster ks) /\ s w)
      (tval (conv_output (zero N) (plus N) (times N) (conv_of (flat_weights f (fun _ => 1%R) b) ks dil ch f) t) l)
      (tval (conv_output (zero N) (plus N) (times N) (conv_of (flat_weights f (fun _ => 1%R) b) ks dil ch f) u) l).
  Proof.
    intros Hf Hb H. set (c := conv_of (flat_weights f (fun _ => 1%R) b) ks dil ch f) in *.
    assert (Hx : exists va vb, forall w, In w (raster ks) -> tval t (conv_loc c l w) = map emb (va w) /\ tval u (conv_loc c l w) = map emb (vb w) /\ length (va w) = ch /\
       Forall2 Rle (va w) (vb w) /\ Forall (Rle (-1)) (va w) /\ (s w -> (addup (va w) < addup (vb w))%R)).
    { clear Hb. revert H. generalize (raster ks). intros ws. induction ws as [|w ws IH]; intros H; [exists (fun _ => []), (fun _ => []); intros w []|].
      destruct IH as (va & vb & IH); [intros; apply H; now right|]. destruct (H w (or_introl eq_refl)) as (a & b' & Q).
      exists (fun w' => if list_eq_dec Nat.eq_dec w' w then a else va w'), (fun w' => if list_eq_dec Nat.eq_dec w' w then b' else vb w').
      intros w' Hw'. destruct (list_eq_dec Nat.eq_dec w' w) as [->|Ne]; [exact Q|]. destruct Hw' as [<-|Hw']; [congruence|]. now apply IH. }
    destruct Hx as (va & vb & Hx).
    unfold c. rewrite (flat_conv_value ks dil ch f _ b t va l), (flat_conv_value ks dil ch f _ b u vb l).
    2: { intros w Hw. fold c. destruct (Hx w Hw) as (_ & -> & L & F & _). split; [reflexivity|]. rewrite <- (Forall2_length _ _ _ F). exact L. }
    2: { intros w Hw. fold c. destruct (Hx w Hw) as (-> & _ & L & F & _). auto. }
    set (A := Rsum (fun w => addup (va w)) (raster ks)). set (B := Rsum (fun w => addup (vb w)) (raster ks)).
    assert (LAB : (A <= B)%R) by (apply Rsum_le; intros w Hw; destruct (Hx w Hw) as (_ & _ & _ & F & _); now apply addup_le).
    assert (LA : (- (INR (length (raster ks)) * INR ch) <= A)%R).
    { unfold A. rewrite Ropp_mult_distr_r. rewrite <- Rsum_const. apply Rsum_le. intros w Hw. destruct (Hx w Hw) as (_ & _ & L & _ & Lo & _).
      apply addup_lower in Lo. rewrite L in Lo. lra. }
    do 2 eexists. split; [reflexivity|]. split; [reflexivity|]. split; [rewrite map_length; unfold range; apply seq_length|]. split; [|split].
    - induction (range f); cbn [map]; constructor; [lra|assumption].
    - apply Forall_forall. intros x Hx'. apply in_map_iff in Hx'. destruct Hx' as (fi & <- & _). lra.
    - intros (w & Hw & Sw). unfold addup. rewrite !Rsum_map, !Rsum_const. unfold range. rewrite seq_length.
      assert (A < B)%R. { apply (Rsum_lt _ _ _ w); [|exact Hw|now apply Hx]. intros w' Hw'. destruct (Hx w' Hw') as (_ & _ & _ & F & _). now apply addup_le. }
      assert (0 < INR f)%R by (apply lt_0_INR; lia). nra.
  Qed.
End Positive.

(** * One dimension *)
Section Positive1D.
  Context {T : Type} (N : numbers T) (emb : R -> T).
  Context (emb_0 : emb 0%R = zero N) (emb_plus : forall x y, plus N (emb x) (emb y) = emb (x + y)%R)
    (emb_times : forall x y, times N (emb x) (emb y) = emb (x * y)%R).

  Definition krel (n : nat) (lo : R) (f : nat) (P : nat -> Prop) (u v : ktensor T) : Prop :=
    tshape (kt u) = [n] /\ tshape (kt v) = [n] /\ features u = f /\ features v = f /\
    forall i, i < n -> rel emb lo f (P i) (tval (kt u) [i]) (tval (kt v) [i]).

  Lemma krel_weaken n lo lo' f (P P' : nat -> Prop) u v : (lo' <= lo)%R -> (forall i, i < n -> P' i -> P i) -> krel n lo f P u v -> krel n lo' f P' u v.
  Proof.
    intros L H (A & B & C & D & E). split; [exact A|]. split; [exact B|]. split; [exact C|]. split; [exact D|]. intros i Hi.
    eapply rel_weaken; [exact L| |now apply E]. auto.
  Qed.

  Lemma conv_krel k d ch f b n P (u v : ktensor T) :
    1 <= k -> 1 <= d -> 0 < n -> 1 <= f -> (INR k * INR ch + 1 <= b)%R -> krel n (-1) ch P u v ->
    let pd := k + (k - 1) * (d - 1) - 1 in let pad x := if 0 <? pd then zero_pad N [(pd, 0)] x else x in
    exists u' v', conv_layer N (flat_weights emb f (fun _ => 1%R) b) f [k] [d] (pad u) = Ok u' /\
      conv_layer N (flat_weights emb f (fun _ => 1%R) b) f [k] [d] (pad v) = Ok v' /\
      krel n 1 f (fun x => exists a, a < k /\ a * d <= x /\ P (x - a * d)) u' v'.
  Proof.
    intros Hk Hd Hn Hf Hb (Hu & Hv & Fu & Fv & Huv) pd pad.
    assert (Hpd : pd = (k - 1) * d) by (unfold pd; destruct k; [lia|]; destruct d; [lia|]; cbn [Nat.sub Nat.mul]; nia).
    assert (Sp : forall x, tshape (kt x) = [n] -> tshape (kt (pad x)) = [n + (k - 1) * d]).
    { intros x Hx. rewrite <- Hpd. unfold pad. destruct (Nat.ltb_spec 0 pd); [apply pad_1d_shape; auto|]. rewrite Hx. f_equal. lia. }
    assert (Fp : forall x, features (pad x) = features x) by (intros x; unfold pad; destruct (0 <? pd); reflexivity).
    assert (Vp : forall i, i < n + pd -> rel emb (-1) ch (pd <= i /\ P (i - pd)) (tval (kt (pad u)) [i]) (tval (kt (pad v)) [i])).
    { intros i Hi. unfold pad. destruct (Nat.ltb_spec 0 pd).
      - rewrite (pad_1d_value N pd n u i), (pad_1d_value N pd n v i) by auto. rewrite Fu, Fv. destruct (Nat.ltb_spec i pd).
        + eapply rel_weaken; [| |now apply rel_zero]; [lra|lia].
        + eapply rel_weaken; [| |apply Huv; lia]; [lra|tauto].
      - eapply rel_weaken; [| |apply Huv; lia]; [lra|]. intros [_ Q]. now replace (i - pd) with i in Q by lia. }
    destruct (conv_1d_ok N (flat_weights emb f (fun _ => 1%R) b) f k d n (pad u) Hk Hn (Sp _ Hu)) as [Cu Tu].
    destruct (conv_1d_ok N (flat_weights emb f (fun _ => 1%R) b) f k d n (pad v) Hk Hn (Sp _ Hv)) as [Cv Tv].
    rewrite Cu, Cv. do 2 eexists. split; [reflexivity|]. split; [reflexivity|]. split; [exact Tu|]. split; [exact Tv|]. split; [reflexivity|]. split; [reflexivity|].
    intros i Hi. cbn [kt]. rewrite !Fp, Fu, Fv.
    eapply rel_weaken; [apply Rle_refl| |apply (rel_conv N emb emb_0 emb_plus emb_times [k] [d] ch f b (kt (pad u)) (kt (pad v)) [i]
      (fun w => pd <= i + nth 0 w 0 * d /\ P (i + nth 0 w 0 * d - pd)))].
    - intros (a & Ha & La & Pa). exists [k - 1 - a]. split; [apply in_raster; repeat constructor; lia|]. cbn [nth].
      assert (E : (k - 1 - a) * d + a * d = pd) by (rewrite Hpd, <- Nat.mul_add_distr_r; f_equal; lia).
      split; [lia|]. now replace (i + (k - 1 - a) * d - pd) with (i - a * d) by lia.
    - exact Hf.
    - rewrite raster_length. unfold volume. cbn [fold_right]. now rewrite Nat.mul_1_r.
    - intros w Hw. destruct (raster_1 k w Hw) as (a & -> & Ha). unfold conv_loc, conv_of. cbn [strides dilation_rate map map2 nth]. rewrite Nat.mul_1_r.
      apply Vp. assert (a * d <= (k - 1) * d) by (apply Nat.mul_le_mono_r; lia). lia.
  Qed.

  Lemma causal_conv_krel k d ch f b act (skip : bool) n P (u v : ktensor T) :
    match act with None => True | Some a => increasing_activation emb a end ->
    1 <= k -> 1 <= d -> 0 < n -> 1 <= f -> (INR k * INR ch + 1 <= b)%R -> krel n (-1) ch P u v -> (skip = true -> ch = f) ->
    exists u' v', causal_conv_1d N (flat_weights emb f (fun _ => 1%R) b) u f k d act (if skip then Some u else None) = Ok u' /\
      causal_conv_1d N (flat_weights emb f (fun _ => 1%R) b) v f k d act (if skip then Some v else None) = Ok v' /\
      krel n 0 f (fun x => exists a, a < k /\ a * d <= x /\ P (x - a * d)) u' v'.
  Proof.
    intros Hact Hk Hd Hn Hf Hb K Hskip. unfold causal_conv_1d.
    destruct (conv_krel k d ch f b n P u v Hk Hd Hn Hf Hb K) as (u1 & v1 & -> & -> & K1). cbn [bind].
    set (Q := fun x => exists a, a < k /\ a * d <= x /\ P (x - a * d)) in *.
    assert (G : exists u2 v2, match (if skip then Some u else None) with None => Ok u1 | Some s => add_layer N u1 s end = Ok u2 /\
       match (if skip then Some v else None) with None => Ok v1 | Some s => add_layer N v1 s end = Ok v2 /\ krel n 0 f Q u2 v2).
    { destruct skip.
      - destruct K1 as (A1 & A2 & A3 & A4 & A5), K as (B1 & B2 & B3 & B4 & B5). rewrite (Hskip eq_refl) in *. unfold add_layer.
        rewrite A1, A2, B1, B2, A3, A4, B3, B4, !same_shape_refl, !Nat.eqb_refl. cbn [andb].
        do 2 eexists. split; [reflexivity|]. split; [reflexivity|]. split; [reflexivity|]. split; [reflexivity|]. split; [reflexivity|]. split; [reflexivity|].
        intros i Hi. cbn [kt tval]. eapply rel_weaken; [| |apply (rel_add N emb emb_plus); [now apply A5|now apply B5]]; [lra|tauto].
      - exists u1, v1. split; [reflexivity|]. split; [reflexivity|]. eapply krel_weaken; [| |exact K1]; [lra|auto]. }
    destruct G as (u2 & v2 & -> & -> & K2). cbn [bind]. destruct act as [a|]; [|eauto].
    do 2 eexists. split; [reflexivity|]. split; [reflexivity|]. destruct K2 as (A1 & A2 & A3 & A4 & A5).
    split; [exact A1|]. split; [exact A2|]. split; [exact A3|]. split; [exact A4|]. intros i Hi. cbn [activate kt tval]. apply rel_act; auto.
  Qed.

  Lemma cover k d t x j : 1 <= k -> 1 <= d -> d <= t + 1 -> j <= x <= j + (k - 1) * (t + d) ->
    exists a, a < k /\ a * d <= x /\ j <= x - a * d <= j + (k - 1) * t.
  Proof.
    intros Hk Hd Ht [L1 L2]. set (q := x - j). assert (Hq : x = j + q) by (unfold q; lia). rewrite Hq in *. clear L1.
    destruct (Nat.le_gt_cases ((k - 1) * d) q) as [L|L].
    - exists (k - 1). rewrite Nat.mul_add_distr_l in L2. lia.
    - exists (q / d). pose proof (Nat.div_mod q d). pose proof (Nat.mod_upper_bound q d). assert (q / d < k - 1) by (apply Nat.div_lt_upper_bound; lia).
      assert (q mod d <= (k - 1) * t).
      { apply Nat.le_trans with t; [lia|]. destruct k as [|[|k]]; [lia|lia|]. cbn [Nat.sub]. nia. }
      rewrite (Nat.mul_comm (q / d) d). lia.
  Qed.

  Lemma conv_stack_krel p W b act skips n j :
    match act with None => True | Some a => increasing_activation emb a end ->
    1 <= ksize p -> 0 < n -> 1 <= num_of_channels p -> (INR (ksize p) * INR (num_of_channels p) + 1 <= b)%R ->
    forall k i (u v : ktensor T) ch, (forall l, i <= l < i + k -> W l = flat_weights emb (num_of_channels p) (fun _ => 1%R) b) ->
    krel n (-1) ch (fun x => j <= x <= j + (ksize p - 1) * total p i) u v -> 1 <= ch <= num_of_channels p -> (0 < i -> ch = num_of_channels p) ->
    exists u' v', conv_stack N p W act skips k i (rate p i) u = Ok u' /\ conv_stack N p W act skips k i (rate p i) v = Ok v' /\
      exists ch', krel n (-1) ch' (fun x => j <= x <= j + (ksize p - 1) * total p (i + k)) u' v'.
  Proof.
    intros Hact Hk Hn Hc Hb k. induction k as [|k IH]; intros i u v ch HW K Hch Hi; cbn [conv_stack].
    - exists u, v. rewrite Nat.add_0_r. eauto.
    - assert (Hb' : (INR (ksize p) * INR ch + 1 <= b)%R).
      { eapply Rle_trans; [|exact Hb]. apply Rplus_le_compat_r, Rmult_le_compat_l; [apply pos_INR|]. apply le_INR. lia. }
      destruct (causal_conv_krel (ksize p) (rate p i) ch (num_of_channels p) b act (skips && (0 <? i)) n _ u v Hact Hk (rate_pos p i) Hn Hc Hb' K) as (u1 & v1 & E1 & E2 & K1).
      { intros E. apply andb_true_iff in E. destruct E as [_ E]. apply Nat.ltb_lt in E. auto. }
      rewrite HW by lia. rewrite E1, E2. cbn [bind]. rewrite next_rate. replace (i + S k) with (S i + k) by lia. apply IH with (num_of_channels p); auto.
      + intros l Hl. apply HW. lia.
      + eapply krel_weaken; [| |exact K1]; [lra|]. intros x _ Hx. cbn beta. apply cover; auto; [apply rate_pos|apply rate_le|]. now rewrite <- total_S.
  Qed.

  Lemma shift_krel n lo f P u v : 0 < n -> (lo <= 0)%R -> krel n lo f P u v ->
    krel n lo f (fun x => 1 <= x /\ P (x - 1)) (shift_layer N 0 u) (shift_layer N 0 v).
  Proof.
    intros Hn Hlo (A1 & A2 & A3 & A4 & A5). unfold shift_layer, shift, concat2, constant_like, take_first.
    split; [|split; [|split; [|split]]]; cbn [kt tshape tval features]; rewrite ?A1, ?A2; cbn [upd nth]; auto.
    - f_equal. lia.
    - f_equal. lia.
    - intros i Hi. cbn [nth upd]. rewrite A3, A4. destruct (Nat.ltb_spec i 1).
      + eapply rel_weaken; [exact Hlo| |now apply rel_zero]. lia.
      + eapply rel_weaken; [apply Rle_refl| |apply A5; lia]. tauto.
  Qed.

  (** The last layer, with a kernel that only feeds the first filter. *)
  Lemma last_krel n lo ch f P u v : 0 < n -> 1 <= f -> krel n lo ch P u v ->
    exists u' v', causal_conv_1d N (flat_weights emb f (fun fi => if fi =? 0 then 1%R else 0%R) 0%R) u f 1 1 None None = Ok u' /\
      causal_conv_1d N (flat_weights emb f (fun fi => if fi =? 0 then 1%R else 0%R) 0%R) v f 1 1 None None = Ok v' /\
      features u' = f /\ features v' = f /\
      forall i, i < n -> exists x y, tval (kt u') [i] = map emb (x :: repeat 0%R (f - 1)) /\ tval (kt v') [i] = map emb (y :: repeat 0%R (f - 1)) /\ (P i -> (x < y)%R).
  Proof.
    intros Hn Hf (A1 & A2 & A3 & A4 & A5). unfold causal_conv_1d. cbn [Nat.sub Nat.mul Nat.add Nat.ltb Nat.leb].
    set (w := flat_weights emb f (fun fi => if fi =? 0 then 1%R else 0%R) 0%R).
    destruct (conv_1d_ok N w f 1 1 n u) as [-> Tu]; [lia|auto|rewrite A1; f_equal; lia|].
    destruct (conv_1d_ok N w f 1 1 n v) as [-> Tv]; [lia|auto|rewrite A2; f_equal; lia|]. cbn [bind].
    do 2 eexists. split; [reflexivity|]. split; [reflexivity|]. split; [reflexivity|]. split; [reflexivity|]. intros i Hi. cbn [kt].
    destruct (A5 i Hi) as (a & b & Ea & Eb & La & F & _ & S).
    assert (G : forall (t : ktensor T) c, features t = ch -> tval (kt t) [i] = map emb c -> length c = ch ->
      tval (conv_output (zero N) (plus N) (times N) (conv_of w [1] [1] (features t) f) (kt t)) [i] = map emb (addup c :: repeat 0%R (f - 1))).
    { intros t c Ft Et Lc. unfold w. rewrite Ft. rewrite (flat_conv_value N emb emb_0 emb_plus emb_times [1] [1] ch f _ 0%R (kt t) (fun _ => c) [i]).
      - f_equal. unfold range. destruct f as [|f]; [lia|]. cbn [seq map Nat.sub]. rewrite Nat.sub_0_r. f_equal.
        + cbn [Nat.eqb]. unfold raster. unfold range. cbn. lra.
        + rewrite <- seq_shift, map_map. cbn [Nat.eqb].
          rewrite (map_ext _ (fun _ => 0%R)) by (intros; rewrite Rmult_0_r; apply Rplus_0_r). rewrite map_const_repeat. now rewrite seq_length.
      - intros w' Hw'. destruct (raster_1 1 w' Hw') as (q & -> & Hq). unfold conv_loc, conv_of. cbn [strides dilation_rate map map2].
        replace (i * 1 + q * 1) with i by lia. auto. }
    exists (addup a), (addup b). split; [now apply G|]. split; [|exact S]. apply G; auto. rewrite <- (Forall2_length _ _ _ F). exact La.
  Qed.
End Positive1D.

Lemma probability_monotone x y : (x < y)%R ->
  (exp (2 * x) / (exp (2 * x) + exp (2 * 0)) < exp (2 * y) / (exp (2 * y) + exp (2 * 0)))%R.
Proof.
  intros H. rewrite Rmult_0_r, exp_0. assert (E : (exp (2 * x) < exp (2 * y))%R) by (apply exp_increasing; lra).
  pose proof (exp_pos (2 * x)). pose proof (exp_pos (2 * y)).
  apply (Rmult_lt_reg_r (exp (2 * x) + 1)); [lra|]. apply (Rmult_lt_reg_r (exp (2 * y) + 1)); [lra|].
  field_simplify; [|lra|lra]. nra.
Qed.

(** The configuration with all spins up, but [z] at [j]. *)
Definition flipped (n j : nat) (z : Z) : list Z := map (fun k => if k =? j then z else 1%Z) (seq 0 n).
Lemma flipped_in n j z : z = 1%Z \/ z = (-1)%Z -> In (flipped n j z) (spin_configs n).
Proof.
  intros H. apply in_strings. split; [unfold flipped; now rewrite map_length, seq_length|]. apply Forall_forall. intros x Hx. apply in_map_iff in Hx.
  destruct Hx as (k & <- & _). destruct (k =? j); cbn [In]; destruct H; subst; auto.
Qed.
Lemma flipped_nth n j z k : k < n -> nth k (flipped n j z) 0%Z = if k =? j then z else 1%Z.
Proof.
  intros H. unfold flipped. set (g := fun k => if k =? j then z else 1%Z). rewrite (nth_indep _ _ (g 0)) by now rewrite map_length, seq_length.
  rewrite map_nth, seq_nth by exact H. reflexivity.
Qed.
Lemma flipped_other n j k : k <> j -> nth k (flipped n j (-1)) 0%Z = nth k (flipped n j 1) 0%Z.
Proof.
  intros H. destruct (Nat.lt_ge_cases k n) as [L|L]; [|rewrite !nth_overflow; [reflexivity|unfold flipped; rewrite map_length, seq_length; lia..]].
  rewrite !flipped_nth by exact L. destruct (Nat.eqb_spec k j); [lia|reflexivity].
Qed.

(** The inputs of the witness. *)
Lemma input_krel {T} (emb : R -> T) n j :
  krel emb n (-1) 1 (fun x => j <= x <= j) (expand_and_cast (fun z => emb (IZR z)) (input_array [n] (flipped n j (-1))))
    (expand_and_cast (fun z => emb (IZR z)) (input_array [n] (flipped n j 1))).
Proof.
  split; [reflexivity|]. split; [reflexivity|]. split; [reflexivity|]. split; [reflexivity|]. intros i Hi.
  cbn [expand_and_cast kt tval input_array row_major volume fold_right]. rewrite Nat.mul_1_r, Nat.add_0_r, !flipped_nth by exact Hi.
  exists [IZR (if i =? j then (-1)%Z else 1%Z)], [IZR (if i =? j then 1%Z else 1%Z)]. split; [reflexivity|]. split; [reflexivity|]. split; [reflexivity|].
  split; [|split].
  - constructor; [|constructor]. destruct (i =? j); lra.
  - constructor; [|constructor]. destruct (i =? j); lra.
  - intros H. replace i with j by lia. rewrite Nat.eqb_refl. unfold addup, Rsum. cbn. lra.
Qed.

Definition unit_bias (p : params_1d) : R := (INR (ksize p) * INR (num_of_channels p) + 1)%R.
Definition seeing_weights {T} (emb : R -> T) (p : params_1d) (layers f l : nat) : weights T :=
  if l <? layers then flat_weights emb (num_of_channels p) (fun _ => 1%R) (unit_bias p)
  else flat_weights emb f (fun fi => if fi =? 0 then 1%R else 0%R) 0%R.

(** The machines up to the numbers of the last convolution. *)
Lemma seeing_stack {T} (N : numbers T) (emb : R -> T) :
  emb 0%R = zero N -> (forall x y, plus N (emb x) (emb y) = emb (x + y)%R) -> (forall x y, times N (emb x) (emb y) = emb (x * y)%R) ->
  forall p act skips layers f n j, match act with None => True | Some a => increasing_activation emb a end ->
  1 <= ksize p -> 0 < n -> 1 <= num_of_channels p -> 1 <= f ->
  let W := seeing_weights emb p layers f in let input z := expand_and_cast (fun z => emb (IZR z)) (input_array [n] (flipped n j z)) in
  exists u v u' v', conv_stack N p W act skips layers 0 1 (input (-1)%Z) = Ok u /\ conv_stack N p W act skips layers 0 1 (input 1%Z) = Ok v /\
    causal_conv_1d N (W layers) (shift_layer N 0 u) f 1 1 None None = Ok u' /\ causal_conv_1d N (W layers) (shift_layer N 0 v) f 1 1 None None = Ok v' /\
    features u' = f /\ features v' = f /\
    forall i, i < n -> exists x y, tval (kt u') [i] = map emb (x :: repeat 0%R (f - 1)) /\ tval (kt v') [i] = map emb (y :: repeat 0%R (f - 1)) /\
      (j < i <= j + reach p layers -> (x < y)%R).
Proof.
  intros E0 Ep Et p act skips layers f n j Hact Hk Hn Hc Hf W input.
  destruct (conv_stack_krel N emb E0 Ep Et p W (unit_bias p) act skips n j Hact Hk Hn Hc (Rle_refl _) layers 0 (input (-1)%Z) (input 1%Z) 1) as (u & v & E1 & E2 & ch & K).
  { intros l Hl. unfold W, seeing_weights. destruct (Nat.ltb_spec l layers); [reflexivity|lia]. }
  { eapply krel_weaken; [apply Rle_refl| |apply input_krel]. intros i _. cbn beta. unfold total. cbn [seq map fold_right]. now rewrite Nat.mul_0_r, Nat.add_0_r. }
  { lia. } { lia. }
  rewrite rate_0 in E1, E2. apply (shift_krel N emb E0) in K; [|exact Hn|lra].
  destruct (last_krel N emb E0 Ep Et n _ ch f _ _ _ Hn Hf K) as (u' & v' & E3 & E4 & F1 & F2 & V).
  exists u, v, u', v'. split; [exact E1|]. split; [exact E2|].
  replace (W layers) with (flat_weights emb f (fun fi => if fi =? 0 then 1%R else 0%R) 0%R) by (unfold W, seeing_weights; now rewrite Nat.ltb_irrefl).
  split; [exact E3|]. split; [exact E4|]. split; [exact F1|]. split; [exact F2|]. intros i Hi. destruct (V i Hi) as (x & y & X & Y & S).
  exists x, y. split; [exact X|]. split; [exact Y|]. intros L. apply S. unfold reach in L. fold (total p layers) in L. cbn [Nat.add] in *. lia.
Qed.

Lemma simple_conv_net_1d_sees p act n i j : match act with None => True | Some a => increasing_activation (fun x => x) a end ->
  1 <= ksize p -> 1 <= num_of_channels p -> i < n -> j < i <= j + reach p (depth p - 2) ->
  exists W, influences (conditionals (simple_conv_net_1d p W act) [n]) n i j.
Proof.
  intros Hact Hk Hc Hi L. exists (seeing_weights (fun x => x) p (depth p - 2) 4).
  exists (flipped n j (-1)), (flipped n j 1). split; [apply flipped_in; auto|]. split; [apply flipped_in; auto|]. split; [intros k; apply flipped_other|].
  destruct (seeing_stack real_numbers (fun x => x) eq_refl (fun _ _ => eq_refl) (fun _ _ => eq_refl) p act (add_skip_connections p) (depth p - 2) 4 n j Hact Hk
    ltac:(lia) Hc ltac:(lia)) as (u & v & u' & v' & E1 & E2 & E3 & E4 & F1 & F2 & V).
  destruct (V i Hi) as (x & y & X & Y & S). specialize (S L).
  unfold conditionals, simple_conv_net_1d, conv_net_1d. rewrite location_1. cbv beta in E1, E2. unfold expand_and_cast in *. rewrite E1, E2. cbn [bind]. rewrite E3, E4. cbn [bind].
  unfold vector_to_complex_layer. rewrite F1, F2. replace (4 mod 2 =? 0) with true by reflexivity. cbn [tval]. rewrite X, Y.
  apply Rlt_not_eq. exact (probability_monotone x y S).
Qed.

Lemma complex_conv_net_1d_sees p act n i j : match act with None => True | Some a => increasing_activation RtoC a end ->
  1 <= ksize p -> 1 <= num_of_channels p -> i < n -> j < i <= j + reach p (depth p - 1) ->
  exists W, influences (conditionals (complex_conv_net_1d p W act) [n]) n i j.
Proof.
  intros Hact Hk Hc Hi L. exists (seeing_weights RtoC p (depth p - 1) 2).
  exists (flipped n j (-1)), (flipped n j 1). split; [apply flipped_in; auto|]. split; [apply flipped_in; auto|]. split; [intros k; apply flipped_other|].
  destruct (seeing_stack complex_numbers RtoC eq_refl) with (p := p) (act := act) (skips := false) (layers := depth p - 1) (f := 2) (n := n) (j := j)
    as (u & v & u' & v' & E1 & E2 & E3 & E4 & F1 & F2 & V); auto; try lia.
  { intros x y. apply C_eq; cbn; lra. } { intros x y. apply C_eq; cbn; lra. }
  destruct (V i Hi) as (x & y & X & Y & S). specialize (S L).
  unfold conditionals, complex_conv_net_1d. rewrite location_1. cbv beta in E1, E2. unfold expand_and_cast in *. rewrite E1, E2. cbn [bind]. rewrite E3, E4. cbn [bind].
  rewrite X, Y. apply Rlt_not_eq. exact (probability_monotone x y S).
Qed.

Lemma conditionals_in (machine : tensor Z -> res (tensor (list C))) n (P : nat -> Prop) s t i : i < n -> P i ->
  outputs_in n P (machine (input_array [n] s)) (machine (input_array [n] t)) -> conditionals machine [n] s i = conditionals machine [n] t i.
Proof. intros Hi HP (u & v & E1 & E2 & V). unfold conditionals. rewrite E1, E2, location_1. auto. Qed.

Lemma simple_conv_net_1d_blind p W act n i s t : 1 <= ksize p -> i < n ->
  (forall j, j < i <= j + reach p (depth p - 2) -> nth j s 0%Z = nth j t 0%Z) ->
  conditionals (simple_conv_net_1d p W act) [n] s i = conditionals (simple_conv_net_1d p W act) [n] t i.
Proof.
  intros Hk Hi H. apply (conditionals_in _ n (unseen (fun j => nth j s 0%Z <> nth j t 0%Z) (reach p (depth p - 2)))); [exact Hi| |].
  - intros j Hj L. apply Hj. now apply H.
  - apply conv_net_1d_in; [exact Hk|lia|]. split; [reflexivity|]. split; [reflexivity|]. split; [reflexivity|]. intros k Hk' E.
    cbn [expand_and_cast kt tval input_array row_major volume fold_right]. rewrite Nat.mul_1_r, Nat.add_0_r.
    destruct (Z.eq_dec (nth k s 0%Z) (nth k t 0%Z)) as [->|Ne]; [reflexivity|contradiction].
Qed.
Lemma complex_conv_net_1d_blind p W act n i s t : 1 <= ksize p -> i < n ->
  (forall j, j < i <= j + reach p (depth p - 1) -> nth j s 0%Z = nth j t 0%Z) ->
  conditionals (complex_conv_net_1d p W act) [n] s i = conditionals (complex_conv_net_1d p W act) [n] t i.
Proof.
  intros Hk Hi H. apply (conditionals_in _ n (unseen (fun j => nth j s 0%Z <> nth j t 0%Z) (reach p (depth p - 1)))); [exact Hi| |].
  - intros j Hj L. apply Hj. now apply H.
  - apply complex_conv_net_1d_in; [exact Hk|lia|reflexivity|reflexivity|]. intros k Hk' E.
    cbn [tval input_array row_major volume fold_right]. rewrite Nat.mul_1_r, Nat.add_0_r.
    destruct (Z.eq_dec (nth k s 0%Z) (nth k t 0%Z)) as [->|Ne]; [reflexivity|contradiction].
Qed.

(** The activations of the machines. *)
Lemma relu_increasing : increasing_activation (fun x => x) relu.
Proof.
  exists (Rmax 0). split; [|split].
  - intros a _. now rewrite !map_id.
  - intros x H. apply Rmax_l.
  - intros x y H. rewrite !Rmax_right; lra.
Qed.
Definition real_lncosh (x : R) : R := (ln (exp x + exp (- x)) - ln 2)%R.
Lemma lncosh_real x : (0 <= x)%R -> lncosh (RtoC x) = RtoC (real_lncosh x).
Proof.
  intros H. pose proof (exp_pos x) as P1. pose proof (exp_pos (- x)) as P2. pose proof (exp_pos (- x - x)) as P3. unfold lncosh. cbn [Re RtoC fst].
  rewrite Rabs_pos_eq by exact H.
  replace (Cexp (RtoC x - RtoC x) + Cexp (- RtoC x - RtoC x))%C with (Cexp (RtoC (ln (1 + exp (- x - x))%R))).
  - rewrite complex_log_exp by (cbn [RtoC Im snd]; pose proof PI_RGT_0; lra).
    apply C_eq; unfold Cplus, Cminus, Copp, RtoC, Re, Im; cbn [fst snd]; [|ring]. unfold real_lncosh.
    replace (exp x + exp (- x))%R with (exp x * (1 + exp (- x - x)))%R.
    + rewrite ln_mult by lra. rewrite ln_exp. ring.
    + unfold Rminus. rewrite exp_plus. assert (E : (exp x * exp (- x) = 1)%R) by (rewrite <- exp_plus, Rplus_opp_r; apply exp_0). rewrite Rmult_plus_distr_l, <- Rmult_assoc, E. ring.
  - apply C_eq; unfold Cexp, Cplus, Cminus, Copp, RtoC, Re, Im; cbn [fst snd]; rewrite ?Ropp_0, ?Rminus_0_r, ?cos_0, ?sin_0.
    + rewrite exp_ln by lra. rewrite (Rminus_diag_eq x x eq_refl), exp_0. ring.
    + ring.
Qed.
Lemma cosh_grows x y : (0 <= x < y)%R -> (exp x + exp (- x) < exp y + exp (- y))%R.
Proof.
  intros [H L]. pose proof (exp_pos x) as P1. pose proof (exp_pos y) as P2. rewrite !exp_Ropp. assert (E : (exp x < exp y)%R) by now apply exp_increasing.
  assert (E1 : (1 <= exp x)%R). { rewrite <- exp_0. destruct H as [H|<-]; [left; now apply exp_increasing|lra]. }
  apply (Rmult_lt_reg_r (exp x * exp y)); [nra|]. field_simplify; [|lra|lra].
  assert (Q : (0 < (exp x * exp y - 1) * (exp y - exp x))%R) by (apply Rmult_lt_0_compat; nra). nra.
Qed.
Lemma lncosh_increasing : increasing_activation RtoC (map lncosh).
Proof.
  exists real_lncosh.
  assert (M : forall x y, (0 <= x < y)%R -> (real_lncosh x < real_lncosh y)%R).
  { intros x y H. unfold real_lncosh. pose proof (exp_pos x). pose proof (exp_pos (- x)). apply Rplus_lt_compat_r, ln_increasing; [lra|]. now apply cosh_grows. }
  split; [|split; [|exact M]].
  - intros a F. rewrite !map_map. apply map_ext_in. intros x Hx. rewrite Forall_forall in F. apply lncosh_real. now apply F.
  - assert (Z : real_lncosh 0 = 0%R) by (unfold real_lncosh; rewrite Ropp_0, exp_0; replace (1 + 1)%R with 2%R by lra; lra).
    intros x [H|<-]; [|lra]. rewrite <- Z. left. apply M. lra.
Qed.
