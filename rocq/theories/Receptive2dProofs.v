(** Lemmas about the receptive fields of the convolutional machines. *)
From Coq Require Import List ZArith Arith Bool Reals Lia Lra.
From Verif Require Import Base Cplx OrderingModel OrderingSpec OrderingProofs TensorModel AutoregressiveModel
  AutoregressiveSpec AutoregressiveProofs TopologyProofs MachinesModel MachinesSpec MachinesProofs ComplexModel ComplexProofs ReceptiveSpec ReceptiveProofs.
Import ListNotations.


(** * Two dimensions *)

(** What the change of site (i, j) reaches after [m] convolutions: the vertical stack, the horizontal stack, the horizontal stack after the convolution of its
    rows, and the vertical stack shifted down. *)
Definition vreg (m q i j x y : nat) : Prop := i <= x <= i + 2 * (m * q) /\ j <= y + m * q /\ y <= j + m * q.
Definition hreg (m q i j x y : nat) : Prop :=
  (i <= x <= i + 2 * (m * q) /\ j <= y <= j + 4 * (m * q)) \/
  (1 <= m /\ i < x <= i + 1 + 2 * (m * q) + 2 * q /\ j <= y + m * q /\ y + q <= j + 4 * (m * q)).
Definition xreg (m q i j x y : nat) : Prop :=
  (i <= x <= i + 2 * (m * q) /\ j <= y <= j + 4 * (m * q) + 2 * q) \/
  (1 <= m /\ i < x <= i + 1 + 2 * (m * q) + 2 * q /\ j <= y + m * q /\ y + q <= j + 4 * (m * q) + 2 * q).
Definition xreg' (mask : bool) (m q i j x y : nat) : Prop := if mask then 1 <= y /\ xreg m q i j x (y - 1) else xreg m q i j x y.
Definition creg (mask : bool) (m q i j x y : nat) : Prop := xreg' mask m q i j x y \/ (1 <= x /\ vreg (S m) q i j (x - 1) y).
Definition hreg' (mask : bool) (m q i j x y : nat) : Prop := if mask then sees_2d m q x y i j else hreg m q i j x y.


Lemma vreg_grows m q i j x y x' y' : vreg m q i j x' y' -> x' <= x <= x' + 2 * q -> y <= y' + q -> y' <= y + q -> vreg (S m) q i j x y.
Proof. unfold vreg. rewrite (Nat.mul_succ_l m q). set (M := m * q). clearbody M. lia. Qed.
Lemma vreg_from m q i j h w x y : i < h -> j < w -> x < h -> y < w -> vreg (S m) q i j x y ->
  exists x' y', x' < h /\ y' < w /\ vreg m q i j x' y' /\ x' <= x <= x' + 2 * q /\ y <= y' + q /\ y' <= y + q.
Proof.
  unfold vreg. rewrite (Nat.mul_succ_l m q). set (M := m * q). clearbody M. intros.
  exists (Nat.max i (x - 2 * q)), (if y <? j then Nat.min (y + q) j else Nat.max j (y - q)). destruct (Nat.ltb_spec y j); lia.
Qed.
Lemma xreg_grows m q i j x y y' : hreg m q i j x y' -> y' <= y <= y' + 2 * q -> xreg m q i j x y.
Proof. unfold hreg, xreg. set (M := m * q). clearbody M. lia. Qed.
Lemma xreg_from m q i j w x y : j < w -> y < w -> xreg m q i j x y -> exists y', y' < w /\ hreg m q i j x y' /\ y' <= y <= y' + 2 * q.
Proof.
  intros Hj Hy. unfold hreg, xreg. assert (1 <= m -> q <= m * q) by (destruct m as [|m]; [lia|]; rewrite (Nat.mul_succ_l m q); lia). set (M := m * q) in *. clearbody M.
  intros [L|L].
  - exists (Nat.max j (y - 2 * q)). lia.
  - exists (if y + q <=? j + 4 * M then y else j + 4 * M - q). destruct (Nat.leb_spec (y + q) (j + 4 * M)); lia.
Qed.
Lemma hreg_grows m q i j x y x' y' : creg false m q i j x' y' -> x' <= x <= x' + 2 * q -> y' <= y <= y' + 2 * q -> hreg (S m) q i j x y.
Proof. unfold creg, xreg', hreg, xreg, vreg. rewrite (Nat.mul_succ_l m q). assert (1 <= m -> q <= m * q) by (destruct m as [|m]; [lia|]; rewrite (Nat.mul_succ_l m q); lia). set (M := m * q) in *. clearbody M. lia. Qed.
Lemma hreg_from m q i j h w x y : i < h -> j < w -> x < h -> y < w -> hreg (S m) q i j x y ->
  exists x' y', x' < h /\ y' < w /\ creg false m q i j x' y' /\ x' <= x <= x' + 2 * q /\ y' <= y <= y' + 2 * q.
Proof.
  intros Hi Hj Hx Hy. unfold creg, xreg', hreg, xreg, vreg. rewrite (Nat.mul_succ_l m q).
  assert (m = 0 -> m * q = 0) by (intros ->; reflexivity). set (M := m * q) in *. clearbody M. intros [L|L].
  - exists (Nat.max i (x - 2 * q)), (Nat.max j (y - 2 * q)). lia.
  - destruct (Nat.le_gt_cases y (j + M + 3 * q)).
    + exists (Nat.max (i + 1) (x - 2 * q)), (if y <=? j + M + q then y else j + M + q). destruct (Nat.leb_spec y (j + M + q)); lia.
    + exists (Nat.max (i + 1) (x - 2 * q)), (y - 2 * q). lia.
Qed.
Lemma sees_grows m q i j x y x' y' : 1 <= m -> creg true m q i j x' y' -> x' <= x <= x' + 2 * q -> y' <= y <= y' + 2 * q -> sees_2d (S m) q x y i j.
Proof. intros Hm. unfold creg, xreg', sees_2d, xreg, vreg. rewrite (Nat.mul_succ_l m q). assert (q <= m * q) by (destruct m as [|m]; [lia|]; rewrite (Nat.mul_succ_l m q); lia). set (M := m * q) in *. clearbody M. lia. Qed.
Lemma sees_from m q i j h w x y : 1 <= m -> i < h -> j < w -> x < h -> y < w -> sees_2d (S m) q x y i j ->
  exists x' y', x' < h /\ y' < w /\ creg true m q i j x' y' /\ x' <= x <= x' + 2 * q /\ y' <= y <= y' + 2 * q.
Proof.
  intros Hm Hi Hj Hx Hy. unfold creg, xreg', sees_2d, xreg, vreg. rewrite (Nat.mul_succ_l m q). set (M := m * q) in *. clearbody M.
  intros [L|[L|L]].
  - exists x, (Nat.max (j + 1) (y - 2 * q)). lia.
  - destruct (Nat.le_gt_cases y j).
    + exists (Nat.max (i + 1) (x - 2 * q)), y. lia.
    + exists (Nat.max i (x - 2 * q)), (Nat.max (j + 1) (y - 2 * q)). lia.
  - destruct (Nat.le_gt_cases y (j + M + 3 * q)).
    + exists (Nat.max (i + 1) (x - 2 * q)), (if y <=? j + M + q then y else j + M + q). destruct (Nat.leb_spec y (j + M + q)); lia.
    + exists (Nat.max (i + 1) (x - 2 * q)), (y - 2 * q). lia.
Qed.
Lemma vreg_mono m q i j x y : vreg m q i j x y -> vreg (S m) q i j x y.
Proof. unfold vreg. rewrite (Nat.mul_succ_l m q). lia. Qed.
Lemma hreg_mono m q i j x y : hreg m q i j x y -> hreg (S m) q i j x y.
Proof. unfold hreg. rewrite (Nat.mul_succ_l m q). set (M := m * q). clearbody M. lia. Qed.

(** ** Nothing outside matters *)

(** Sites that no changed site reaches. *)
Definition off (reg : nat -> nat -> nat -> nat -> Prop) (D : nat -> nat -> Prop) (x y : nat) : Prop := forall i j, D i j -> ~ reg i j x y.

Lemma causal_conv_2d_off p W act (mask : bool) q m D h w (vu vv hu hv : ktensor R) :
  ksize2 p = 2 * q + 1 -> 0 < h -> 0 < w -> (mask = true -> 1 <= m) ->
  agree_2d h w (off (vreg m q) D) vu vv -> agree_2d h w (off (hreg m q) D) hu hv ->
  exists vu' vv' hu' hv', causal_conv_2d p W act mask vu hu = Ok (vu', hu') /\
    causal_conv_2d p W act mask vv hv = Ok (vv', hv') /\
    agree_2d h w (off (vreg (S m) q) D) vu' vv' /\ agree_2d h w (off (hreg' mask (S m) q) D) hu' hv' /\
    features vu' = channels2 p /\ features hu' = channels2 p.
Proof.
  intros Hq Hh Hw Hm AV AH. unfold causal_conv_2d. cbv zeta. rewrite Hq. replace (2 * q + 1 - 1) with (2 * q) by lia.
  replace (2 * q / 2) with q by (rewrite Nat.mul_comm; symmetry; apply Nat.div_mul; lia). set (f := channels2 p).
  set (N := real_numbers). set (c := 0 <? 2 * q).
  assert (Hc : c = false -> q = 0). { unfold c. intros E. apply Nat.ltb_ge in E. lia. }
  destruct (pad_conv_agree N (W 0) f (2 * q + 1) (2 * q + 1) c (2 * q) q q h w (off (vreg m q) D) (off (vreg (S m) q) D) vu vv)
    as (vu1 & vv1 & -> & -> & AV1 & FV1 & _); auto; try lia; try (intros E; apply Hc in E; lia).
  { intros x y x' y' O L1 L2 L3 L4 i j S V. apply (O i j S). eapply vreg_grows; [exact V|lia..]. }
  cbn [bind].
  destruct (pad_conv_agree N (W 1) f 1 (2 * q + 1) c 0 (2 * q) 0 h w (off (hreg m q) D) (off (xreg m q) D) hu hv)
    as (x1 & y1 & Ex1 & Ey1 & AX1 & _); auto; try lia; try (intros E; apply Hc in E; lia).
  { intros x y x' y' O L1 L2 L3 L4 i j S V. apply (O i j S). replace x with x' by lia. eapply xreg_grows; [exact V|lia]. }
  rewrite Ex1, Ey1. cbn [bind].
  assert (AX2 : agree_2d h w (off (xreg' mask m q) D)
    (if mask then shift_layer N 1 (activate act x1) else activate act x1)
    (if mask then shift_layer N 1 (activate act y1) else activate act y1)).
  { unfold xreg'. destruct mask.
    - eapply right_shift_agree; [exact Hw| |apply activate_agree; exact AX1]. intros x y O i j S V. apply (O i j S). cbn [Nat.sub]. rewrite Nat.sub_0_r. auto with arith.
    - now apply activate_agree. }
  destruct (pad_conv_agree N (W 2) (f / 2) 1 1 false 0 0 0 h w (off (xreg' mask m q) D) (off (xreg' mask m q) D) _ _
    ltac:(auto) ltac:(auto) ltac:(auto) Hh Hw eq_refl eq_refl AX2) as (x3 & y3 & Ex3 & Ey3 & AX3 & _).
  { intros x y x' y' O L1 L2 L3 L4. replace x' with x by lia. replace y' with y by lia. exact O. }
  rewrite Ex3, Ey3. cbn [bind].
  assert (AY : agree_2d h w (off (fun i j x y => 1 <= x /\ vreg (S m) q i j (x - 1) y) D) (shift_layer N 0 (activate act vu1)) (shift_layer N 0 (activate act vv1))).
  { eapply down_shift_agree; [exact Hh| |apply activate_agree; exact AV1]. intros x y O i j S V. apply (O i j S). cbn [Nat.sub]. rewrite Nat.sub_0_r. auto with arith. }
  destruct (pad_conv_agree N (W 3) (f / 2) 1 1 false 0 0 0 h w _ (off (fun i j x y => 1 <= x /\ vreg (S m) q i j (x - 1) y) D) _ _
    ltac:(auto) ltac:(auto) ltac:(auto) Hh Hw eq_refl eq_refl AY) as (x4 & y4 & Ex4 & Ey4 & AX4 & _).
  { intros x y x' y' O L1 L2 L3 L4. replace x' with x by lia. replace y' with y by lia. exact O. }
  rewrite Ex4, Ey4. cbn [bind].
  destruct (concatenate_agree h w (off (creg mask m q) D) (activate act x3) (activate act y3) (activate act x4) (activate act y4)) as (x5 & y5 & -> & -> & AX5).
  { apply activate_agree. eapply agree_weaken; [|exact AX3]. intros x y O i j S V. apply (O i j S). now left. }
  { apply activate_agree. eapply agree_weaken; [|exact AX4]. intros x y O i j S V. apply (O i j S). now right. }
  cbn [bind].
  destruct (pad_conv_agree N (W 4) f (2 * q + 1) (2 * q + 1) c (2 * q) (2 * q) 0 h w (off (creg mask m q) D) (off (hreg' mask (S m) q) D) x5 y5)
    as (x6 & y6 & -> & -> & AX6 & FX6 & _); auto; try lia; try (intros E; apply Hc in E; lia).
  { intros x y x' y' O L1 L2 L3 L4 i j S V. apply (O i j S). unfold hreg'. destruct mask; [eapply sees_grows|eapply hreg_grows]; eauto; lia. }
  cbn [bind]. exists vu1, vv1, x6, y6. auto 10.
Qed.

Lemma residual_block_off p W act q m D h w (vu vv hu hv : ktensor R) :
  ksize2 p = 2 * q + 1 -> 0 < h -> 0 < w ->
  agree_2d h w (off (vreg m q) D) vu vv -> agree_2d h w (off (hreg m q) D) hu hv ->
  features vu = channels2 p -> features hu = channels2 p ->
  exists vu' vv' hu' hv', residual_block p W act vu hu = Ok (vu', hu') /\ residual_block p W act vv hv = Ok (vv', hv') /\
    agree_2d h w (off (vreg (S (S m)) q) D) vu' vv' /\ agree_2d h w (off (hreg (S (S m)) q) D) hu' hv' /\
    features vu' = channels2 p /\ features hu' = channels2 p.
Proof.
  intros Hq Hh Hw AV AH FV FH. unfold residual_block.
  destruct (causal_conv_2d_off p (W 0) act false q m D h w vu vv hu hv Hq Hh Hw ltac:(discriminate) AV AH)
    as (vu1 & vv1 & hu1 & hv1 & -> & -> & AV1 & AH1 & FV1 & FH1). cbn [bind fst snd].
  destruct (causal_conv_2d_off p (W 1) act false q (S m) D h w (activate act vu1) (activate act vv1) (activate act hu1)
    (activate act hv1) Hq Hh Hw ltac:(discriminate) (activate_agree act _ _ _ _ _ AV1) (activate_agree act _ _ _ _ _ AH1))
    as (vu2 & vv2 & hu2 & hv2 & -> & -> & AV2 & AH2 & FV2 & FH2). cbn [bind fst snd].
  assert (AV' : agree_2d h w (off (vreg (S (S m)) q) D) vu vv).
  { eapply agree_weaken; [|exact AV]. intros x y O i j S V. apply (O i j S). now do 2 apply vreg_mono. }
  assert (AH' : agree_2d h w (off (hreg (S (S m)) q) D) hu hv).
  { eapply agree_weaken; [|exact AH]. intros x y O i j S V. apply (O i j S). now do 2 apply hreg_mono. }
  destruct (add_agree real_numbers h w _ _ _ _ _ AV' AV2) as (v3 & w3 & -> & -> & AV3 & FV3); [congruence|]. cbn [bind].
  destruct (add_agree real_numbers h w _ _ _ _ _ AH' AH2) as (v4 & w4 & -> & -> & AV4 & FV4); [congruence|]. cbn [bind].
  exists (activate act v3), (activate act w3), (activate act v4), (activate act w4).
  split; [reflexivity|]. split; [reflexivity|]. split; [now apply activate_agree|]. split; [now apply activate_agree|].
  cbn [activate features]. split; congruence.
Qed.

Lemma residual_blocks_off p W act q D h w :
  ksize2 p = 2 * q + 1 -> 0 < h -> 0 < w ->
  forall n m b (vu vv hu hv : ktensor R),
  agree_2d h w (off (vreg m q) D) vu vv -> agree_2d h w (off (hreg m q) D) hu hv ->
  features vu = channels2 p -> features hu = channels2 p ->
  exists vu' vv' hu' hv', residual_blocks p W act n b vu hu = Ok (vu', hu') /\
    residual_blocks p W act n b vv hv = Ok (vv', hv') /\
    agree_2d h w (off (vreg (m + 2 * n) q) D) vu' vv' /\ agree_2d h w (off (hreg (m + 2 * n) q) D) hu' hv'.
Proof.
  intros Hq Hh Hw n. induction n as [|n IH]; intros m b vu vv hu hv AV AH FV FH; cbn [residual_blocks].
  - exists vu, vv, hu, hv. replace (m + 2 * 0) with m by lia. auto.
  - destruct (residual_block_off p (fun j => W (2 * b + j + 1)) act q m D h w vu vv hu hv Hq Hh Hw AV AH FV FH)
      as (vu1 & vv1 & hu1 & hv1 & -> & -> & AV1 & AH1 & FV1 & FH1). cbn [bind fst snd]. replace (m + 2 * S n) with (S (S m) + 2 * n) by lia. apply IH; auto.
Qed.

Lemma conv_net_2d_off p W w_last act q D h w (u v : tensor Z) :
  ksize2 p = 2 * q + 1 -> 0 < h -> 0 < w -> tshape u = [h; w] -> tshape v = [h; w] ->
  (forall i j, i < h -> j < w -> ~ D i j -> tval u [i; j] = tval v [i; j]) ->
  exists x y, conv_net_2d p W w_last act u = Ok x /\ conv_net_2d p W w_last act v = Ok y /\
    forall i j, i < h -> j < w -> (forall i' j', D i' j' -> ~ sees_2d (2 * (depth2 p - 2) + 2) q i j i' j') -> tval x [i; j] = tval y [i; j].
Proof.
  intros Hq Hh Hw Su Sv Huv. unfold conv_net_2d. cbv zeta.
  assert (A : forall reg : nat -> nat -> nat -> nat -> Prop, (forall i j, reg i j i j) -> agree_2d h w (off reg D) (expand_and_cast IZR u) (expand_and_cast IZR v)).
  { intros reg Hreg. split; [exact Su|]. split; [exact Sv|]. split; [reflexivity|]. intros i j Hi Hj Hb.
    cbn [expand_and_cast kt tval]. rewrite Huv; auto. intros Dij. exact (Hb i j Dij (Hreg i j)). }
  destruct (causal_conv_2d_off p (W 0) act false q 0 D h w _ _ _ _ Hq Hh Hw ltac:(discriminate) (A (vreg 0 q) ltac:(intros; unfold vreg; lia)) (A (hreg 0 q) ltac:(intros; unfold hreg; lia)))
    as (vu1 & vv1 & hu1 & hv1 & -> & -> & AV1 & AH1 & FV1 & FH1). cbn [bind fst snd].
  destruct (residual_blocks_off p W act q D h w Hq Hh Hw (depth2 p - 2) 1 0 (activate act vu1) (activate act vv1)
    (activate act hu1) (activate act hv1) (activate_agree act _ _ _ _ _ AV1) (activate_agree act _ _ _ _ _ AH1) FV1 FH1)
    as (vu2 & vv2 & hu2 & hv2 & -> & -> & AV2 & AH2). cbn [bind fst snd].
  destruct (causal_conv_2d_off p (W (2 * (depth2 p - 2) + 1)) act true q (1 + 2 * (depth2 p - 2)) D h w _ _ _ _ Hq Hh Hw ltac:(intros; lia) AV2 AH2)
    as (vu3 & vv3 & hu3 & hv3 & -> & -> & AV3 & AH3 & _). cbn [bind fst snd].
  destruct (pad_conv_agree real_numbers w_last 4 1 1 false 0 0 0 h w _ (off (hreg' true (S (1 + 2 * (depth2 p - 2))) q) D) _ _
    ltac:(auto) ltac:(auto) ltac:(auto) Hh Hw eq_refl eq_refl (activate_agree act _ _ _ _ _ AH3))
    as (x & y & Ex & Ey & AX & FX & LX).
  { intros x y x' y' O L1 L2 L3 L4. replace x' with x by lia. replace y' with y by lia. exact O. }
  rewrite Ex, Ey. cbn [bind]. destruct AX as (X1 & X2 & X3 & X4). unfold vector_to_complex_layer.
  rewrite <- X3, FX. replace (4 mod 2 =? 0) with true by reflexivity.
  do 2 eexists. split; [reflexivity|]. split; [reflexivity|]. cbn [tshape tval].
  intros i j Hi Hj Hb. rewrite X4; auto. intros i' j' Dij. cbn [hreg']. replace (S (1 + 2 * (depth2 p - 2))) with (2 * (depth2 p - 2) + 2) by lia. now apply Hb.
Qed.

(** ** Everything inside matters for some weights *)
Definition id_emb (x : R) : R := x.
Lemma id_0 : id_emb 0%R = zero real_numbers. Proof. reflexivity. Qed.
Lemma id_plus x y : plus real_numbers (id_emb x) (id_emb y) = id_emb (x + y)%R. Proof. reflexivity. Qed.
Lemma id_times x y : times real_numbers (id_emb x) (id_emb y) = id_emb (x * y)%R. Proof. reflexivity. Qed.

Definition krel2 (h w : nat) (lo : R) (f : nat) (P : nat -> nat -> Prop) (u v : ktensor R) : Prop :=
  tshape (kt u) = [h; w] /\ tshape (kt v) = [h; w] /\ features u = f /\ features v = f /\
  forall i j, i < h -> j < w -> rel id_emb lo f (P i j) (tval (kt u) [i; j]) (tval (kt v) [i; j]).

Lemma krel2_weaken h w lo lo' f (P P' : nat -> nat -> Prop) u v : (lo' <= lo)%R -> (forall i j, i < h -> j < w -> P' i j -> P i j) ->
  krel2 h w lo f P u v -> krel2 h w lo' f P' u v.
Proof.
  intros L H (A & B & C & D & E). split; [exact A|]. split; [exact B|]. split; [exact C|]. split; [exact D|]. intros i j Hi Hj.
  eapply rel_weaken; [exact L| |now apply E]. auto.
Qed.

Definition ones (f : nat) (b : R) : weights R := flat_weights id_emb f (fun _ => 1%R) b.

Lemma pad_conv_krel2 B f ch k1 k2 c a b b' h w (P : nat -> nat -> Prop) (u v : ktensor R) :
  (c = false -> a = 0 /\ b = 0 /\ b' = 0) -> 1 <= k1 -> 1 <= k2 -> 0 < h -> 0 < w -> a = k1 - 1 -> b + b' = k2 - 1 -> 1 <= f ->
  (INR (k1 * k2) * INR ch + 1 <= B)%R -> krel2 h w (-1) ch P u v ->
  exists u' v',
    conv_layer real_numbers (ones f B) f [k1; k2] [1; 1] (if c then zero_pad real_numbers [(a, 0); (b, b')] u else u) = Ok u' /\
    conv_layer real_numbers (ones f B) f [k1; k2] [1; 1] (if c then zero_pad real_numbers [(a, 0); (b, b')] v else v) = Ok v' /\
    krel2 h w 1 f (fun x y => exists x' y', x' < h /\ y' < w /\ P x' y' /\ x' <= x <= x' + (k1 - 1) /\ y <= y' + b /\ y' + b <= y + (k2 - 1)) u' v'.
Proof.
  intros Hc H1 H2 Hh Hw Ha Hb Hf HB (Su & Sv & Fu & Fv & V).
  destruct (pad_2d real_numbers c a b b' h w u Hc Su) as (Pu & Fu' & Vu).
  destruct (pad_2d real_numbers c a b b' h w v Hc Sv) as (Pv & Fv' & Vv).
  set (pu := if c then zero_pad real_numbers [(a, 0); (b, b')] u else u) in *.
  set (pv := if c then zero_pad real_numbers [(a, 0); (b, b')] v else v) in *.
  rewrite Ha, Hb in Pu, Pv.
  destruct (conv_2d_ok real_numbers (ones f B) f k1 k2 h w pu H1 H2 Hh Hw Pu) as [-> Tu].
  destruct (conv_2d_ok real_numbers (ones f B) f k1 k2 h w pv H1 H2 Hh Hw Pv) as [-> Tv].
  do 2 eexists. split; [reflexivity|]. split; [reflexivity|]. split; [exact Tu|]. split; [exact Tv|]. split; [reflexivity|]. split; [reflexivity|].
  intros i j Hi Hj. cbn [kt]. rewrite Fu', Fv', Fu, Fv.
  eapply rel_weaken; [apply Rle_refl| |apply (rel_conv real_numbers id_emb id_0 id_plus id_times [k1; k2] [1; 1] ch f B (kt pu) (kt pv) [i; j]
    (fun l => let x := i + nth 0 l 0 in let y := j + nth 1 l 0 in a <= x /\ b <= y < b + w /\ P (x - a) (y - b)))].
  - intros (x & y & Hx & Hy & Pxy & L1 & L2 & L3). exists [x + a - i; y + b - j]. split; [apply in_raster; repeat constructor; lia|]. cbn [nth]. cbv zeta.
    replace (i + (x + a - i) - a) with x by lia. replace (j + (y + b - j) - b) with y by lia. split; [lia|]. split; [lia|exact Pxy].
  - exact Hf.
  - rewrite raster_length. unfold volume. cbn [fold_right]. now rewrite Nat.mul_1_r.
  - intros l Hl. destruct (raster_2 k1 k2 l Hl) as (x & y & -> & Hx & Hy).
    unfold conv_loc, conv_of. cbn [strides dilation_rate map map2 nth]. rewrite !Nat.mul_1_r. cbv zeta. rewrite Vu, Vv by lia. rewrite Fu, Fv.
    destruct (Nat.ltb_spec (i + x) a); cbn [orb]; [eapply rel_weaken; [| |apply (rel_zero real_numbers id_emb id_0)]; [lra|lia]|].
    destruct (Nat.ltb_spec (j + y) b); cbn [orb]; [eapply rel_weaken; [| |apply (rel_zero real_numbers id_emb id_0)]; [lra|lia]|].
    destruct (Nat.leb_spec (b + w) (j + y)); [eapply rel_weaken; [| |apply (rel_zero real_numbers id_emb id_0)]; [lra|lia]|].
    eapply rel_weaken; [apply Rle_refl| |apply V; lia]. tauto.
Qed.

Lemma activate_krel2 act h w f P u v : increasing_activation id_emb act -> krel2 h w 0 f P u v -> krel2 h w 0 f P (activate act u) (activate act v).
Proof.
  intros Hact (A & B & C & D & E). split; [exact A|]. split; [exact B|]. split; [exact C|]. split; [exact D|]. intros i j Hi Hj.
  cbn [activate kt tval]. apply rel_act; auto.
Qed.
Lemma activate_low act h w lo f P u v : increasing_activation id_emb act -> (0 <= lo)%R -> krel2 h w lo f P u v -> krel2 h w (-1) f P (activate act u) (activate act v).
Proof.
  intros Hact L H. apply (krel2_weaken h w 0 (-1) f P P); [lra|auto|]. apply activate_krel2; [exact Hact|]. now apply (krel2_weaken h w lo 0 f P P).
Qed.
Lemma down_shift_krel2 h w f P u v : 0 < h -> krel2 h w 0 f P u v ->
  krel2 h w 0 f (fun x y => 1 <= x /\ P (x - 1) y) (shift_layer real_numbers 0 u) (shift_layer real_numbers 0 v).
Proof.
  intros Hh (A1 & A2 & A3 & A4 & A5). unfold shift_layer, shift, concat2, constant_like, take_first.
  split; [|split; [|split; [|split]]]; cbn [kt tshape tval features]; rewrite ?A1, ?A2; cbn [upd nth]; auto.
  - f_equal. lia.
  - f_equal. lia.
  - intros i j Hi Hj. cbn [nth upd]. rewrite A3, A4. destruct (Nat.ltb_spec i 1).
    + eapply rel_weaken; [apply Rle_refl| |apply (rel_zero real_numbers id_emb id_0)]. lia.
    + eapply rel_weaken; [apply Rle_refl| |apply A5; lia]. tauto.
Qed.
Lemma right_shift_krel2 h w f P u v : 0 < w -> krel2 h w 0 f P u v ->
  krel2 h w 0 f (fun x y => 1 <= y /\ P x (y - 1)) (shift_layer real_numbers 1 u) (shift_layer real_numbers 1 v).
Proof.
  intros Hh (A1 & A2 & A3 & A4 & A5). unfold shift_layer, shift, concat2, constant_like, take_first.
  split; [|split; [|split; [|split]]]; cbn [kt tshape tval features]; rewrite ?A1, ?A2; cbn [upd nth]; auto.
  - do 2 f_equal. lia.
  - do 2 f_equal. lia.
  - intros i j Hi Hj. cbn [nth upd]. rewrite A3, A4. destruct (Nat.ltb_spec j 1).
    + eapply rel_weaken; [apply Rle_refl| |apply (rel_zero real_numbers id_emb id_0)]. lia.
    + eapply rel_weaken; [apply Rle_refl| |apply A5; lia]. tauto.
Qed.
Lemma concatenate_krel2 h w f f' P P' a b c d : krel2 h w 0 f P a b -> krel2 h w 0 f' P' c d ->
  exists u v, concatenate_features a c = Ok u /\ concatenate_features b d = Ok v /\ krel2 h w 0 (f + f') (fun x y => P x y \/ P' x y) u v.
Proof.
  intros (A1 & A2 & A3 & A4 & A5) (B1 & B2 & B3 & B4 & B5). unfold concatenate_features.
  rewrite A1, A2, B1, B2, same_shape_refl. do 2 eexists. split; [reflexivity|]. split; [reflexivity|].
  split; [reflexivity|]. split; [reflexivity|]. split; [cbn [features]; congruence|]. split; [cbn [features]; congruence|].
  intros i j Hi Hj. cbn [kt tval]. apply rel_app; auto.
Qed.
Lemma add_krel2 h w f P P' a b c d : krel2 h w (-1) f P a b -> krel2 h w 1 f P' c d ->
  exists u v, add_layer real_numbers a c = Ok u /\ add_layer real_numbers b d = Ok v /\ krel2 h w 0 f P' u v.
Proof.
  intros (A1 & A2 & A3 & A4 & A5) (B1 & B2 & B3 & B4 & B5). unfold add_layer.
  rewrite A1, A2, B1, B2, A3, A4, B3, B4, same_shape_refl, Nat.eqb_refl. cbn [andb].
  do 2 eexists. split; [reflexivity|]. split; [reflexivity|].
  split; [reflexivity|]. split; [reflexivity|]. split; [reflexivity|]. split; [reflexivity|].
  intros i j Hi Hj. cbn [kt tval]. eapply rel_weaken; [| |apply (rel_add real_numbers id_emb id_plus); [now apply A5|now apply B5]]; [lra|tauto].
Qed.

Definition bias_2d (p : params_2d) : R := (INR (ksize2 p * ksize2 p) * INR (channels2 p) + 1)%R.
Definition seeing_2d (p : params_2d) (l : nat) : weights R := ones (if (l =? 2) || (l =? 3) then channels2 p / 2 else channels2 p) (bias_2d p).
Lemma bias_2d_bound p k1 k2 ch : k1 <= ksize2 p -> k2 <= ksize2 p -> ch <= channels2 p -> (INR (k1 * k2) * INR ch + 1 <= bias_2d p)%R.
Proof.
  intros H1 H2 H3. unfold bias_2d. rewrite <- !mult_INR. apply Rplus_le_compat_r, le_INR. apply Nat.mul_le_mono; [now apply Nat.mul_le_mono|exact H3].
Qed.

Lemma causal_conv_2d_on p act (mask : bool) q m ch i j h w (vu vv hu hv : ktensor R) :
  increasing_activation id_emb act -> ksize2 p = 2 * q + 1 -> 2 <= channels2 p -> ch <= channels2 p -> i < h -> j < w -> (mask = true -> 1 <= m) ->
  krel2 h w (-1) ch (vreg m q i j) vu vv -> krel2 h w (-1) ch (hreg m q i j) hu hv ->
  exists vu' vv' hu' hv', causal_conv_2d p (seeing_2d p) act mask vu hu = Ok (vu', hu') /\
    causal_conv_2d p (seeing_2d p) act mask vv hv = Ok (vv', hv') /\
    krel2 h w 1 (channels2 p) (vreg (S m) q i j) vu' vv' /\ krel2 h w 1 (channels2 p) (hreg' mask (S m) q i j) hu' hv'.
Proof.
  intros Hact Hq Hch Hch' Hi Hj Hm AV AH. assert (Hh : 0 < h) by lia. assert (Hw : 0 < w) by lia.
  assert (BB : forall k1 k2 c, k1 <= 2 * q + 1 -> k2 <= 2 * q + 1 -> c <= channels2 p -> (INR (k1 * k2) * INR c + 1 <= bias_2d p)%R) by (intros; apply bias_2d_bound; lia).
  unfold causal_conv_2d, seeing_2d. cbv zeta. cbn [Nat.eqb orb]. rewrite Hq. replace (2 * q + 1 - 1) with (2 * q) by lia.
  replace (2 * q / 2) with q by (rewrite Nat.mul_comm; symmetry; apply Nat.div_mul; lia). set (f := channels2 p) in *.
  set (c := 0 <? 2 * q).
  assert (Hf2 : 1 <= f / 2 /\ f / 2 + f / 2 <= f). { pose proof (Nat.div_mod f 2). pose proof (Nat.mod_upper_bound f 2). lia. }
  assert (Hc : c = false -> q = 0). { unfold c. intros E. apply Nat.ltb_ge in E. lia. }
  destruct (pad_conv_krel2 (bias_2d p) f ch (2 * q + 1) (2 * q + 1) c (2 * q) q q h w (vreg m q i j) vu vv)
    as (vu1 & vv1 & -> & -> & AV1); auto; try lia; try (intros E; apply Hc in E; lia).
  assert (AV2 : krel2 h w 1 f (vreg (S m) q i j) vu1 vv1).
  { eapply krel2_weaken; [apply Rle_refl| |exact AV1]. intros x y Hx Hy V. cbv beta. destruct (vreg_from m q i j h w x y Hi Hj Hx Hy V) as (x' & y' & L).
    exists x', y'. intuition lia. }
  cbn [bind].
  destruct (pad_conv_krel2 (bias_2d p) f ch 1 (2 * q + 1) c 0 (2 * q) 0 h w (hreg m q i j) hu hv)
    as (x1 & y1 & Ex1 & Ey1 & AX1); auto; try lia; try (intros E; apply Hc in E; lia).
  { apply BB; lia. }
  rewrite Ex1, Ey1. cbn [bind].
  assert (AX1' : krel2 h w 0 f (xreg m q i j) (activate act x1) (activate act y1)).
  { apply activate_krel2; [exact Hact|]. eapply krel2_weaken; [| |exact AX1]; [lra|]. intros x y Hx Hy V. cbv beta. destruct (xreg_from m q i j w x y Hj Hy V) as (y' & L).
    exists x, y'. intuition lia. }
  assert (AX2 : krel2 h w 0 f (xreg' mask m q i j)
    (if mask then shift_layer real_numbers 1 (activate act x1) else activate act x1)
    (if mask then shift_layer real_numbers 1 (activate act y1) else activate act y1)).
  { unfold xreg'. destruct mask; [now apply right_shift_krel2|exact AX1']. }
  destruct (pad_conv_krel2 (bias_2d p) (f / 2) f 1 1 false 0 0 0 h w (xreg' mask m q i j)
    (if mask then shift_layer real_numbers 1 (activate act x1) else activate act x1)
    (if mask then shift_layer real_numbers 1 (activate act y1) else activate act y1)) as (x3 & y3 & Ex3 & Ey3 & AX3); auto; try lia.
  { apply BB; lia. } { eapply krel2_weaken; [| |exact AX2]; [lra|auto]. }
  rewrite Ex3, Ey3. cbn [bind].
  assert (AY : krel2 h w 0 f (fun x y => 1 <= x /\ vreg (S m) q i j (x - 1) y) (shift_layer real_numbers 0 (activate act vu1)) (shift_layer real_numbers 0 (activate act vv1))).
  { apply down_shift_krel2; [exact Hh|]. apply activate_krel2; [exact Hact|]. eapply krel2_weaken; [| |exact AV2]; [lra|auto]. }
  destruct (pad_conv_krel2 (bias_2d p) (f / 2) f 1 1 false 0 0 0 h w (fun x y => 1 <= x /\ vreg (S m) q i j (x - 1) y)
    (shift_layer real_numbers 0 (activate act vu1)) (shift_layer real_numbers 0 (activate act vv1))) as (x4 & y4 & Ex4 & Ey4 & AX4); auto; try lia.
  { apply BB; lia. } { eapply krel2_weaken; [| |exact AY]; [lra|auto]. }
  rewrite Ex4, Ey4. cbn [bind].
  destruct (concatenate_krel2 h w (f / 2) (f / 2) (xreg' mask m q i j) (fun x y => 1 <= x /\ vreg (S m) q i j (x - 1) y)
    (activate act x3) (activate act y3) (activate act x4) (activate act y4)) as (x5 & y5 & -> & -> & AX5).
  { apply activate_krel2; [exact Hact|]. eapply krel2_weaken; [| |exact AX3]; [lra|]. intros x y Hx Hy V. exists x, y. intuition lia. }
  { apply activate_krel2; [exact Hact|]. eapply krel2_weaken; [| |exact AX4]; [lra|]. intros x y Hx Hy V. exists x, y. intuition lia. }
  cbn [bind].
  destruct (pad_conv_krel2 (bias_2d p) f (f / 2 + f / 2) (2 * q + 1) (2 * q + 1) c (2 * q) (2 * q) 0 h w (creg mask m q i j) x5 y5)
    as (x6 & y6 & -> & -> & AX6); auto; try lia; try (intros E; apply Hc in E; lia).
  { apply BB; lia. } { eapply krel2_weaken; [| |exact AX5]; [lra|auto]. }
  cbn [bind]. exists vu1, vv1, x6, y6. split; [reflexivity|]. split; [reflexivity|]. split; [exact AV2|].
  eapply krel2_weaken; [apply Rle_refl| |exact AX6]. intros x y Hx Hy V. cbv beta.
  assert (G : exists x' y', x' < h /\ y' < w /\ creg mask m q i j x' y' /\ x' <= x <= x' + 2 * q /\ y' <= y <= y' + 2 * q).
  { unfold hreg' in V. destruct mask; [apply sees_from|apply hreg_from]; auto. }
  destruct G as (x' & y' & L). exists x', y'. intuition lia.
Qed.

Lemma residual_blocks_on p act q i j h w :
  increasing_activation id_emb act -> ksize2 p = 2 * q + 1 -> 2 <= channels2 p -> i < h -> j < w ->
  forall n m b (vu vv hu hv : ktensor R),
  krel2 h w (-1) (channels2 p) (vreg m q i j) vu vv -> krel2 h w (-1) (channels2 p) (hreg m q i j) hu hv ->
  exists vu' vv' hu' hv', residual_blocks p (fun _ => seeing_2d p) act n b vu hu = Ok (vu', hu') /\
    residual_blocks p (fun _ => seeing_2d p) act n b vv hv = Ok (vv', hv') /\
    krel2 h w (-1) (channels2 p) (vreg (m + 2 * n) q i j) vu' vv' /\ krel2 h w (-1) (channels2 p) (hreg (m + 2 * n) q i j) hu' hv'.
Proof.
  intros Hact Hq Hc Hi Hj n. induction n as [|n IH]; intros m b vu vv hu hv AV AH; cbn [residual_blocks].
  - exists vu, vv, hu, hv. replace (m + 2 * 0) with m by lia. auto.
  - unfold residual_block.
    destruct (causal_conv_2d_on p act false q m (channels2 p) i j h w vu vv hu hv Hact Hq Hc (le_n _) Hi Hj ltac:(discriminate) AV AH)
      as (vu1 & vv1 & hu1 & hv1 & -> & -> & AV1 & AH1). cbn [bind fst snd].
    destruct (causal_conv_2d_on p act false q (S m) (channels2 p) i j h w (activate act vu1) (activate act vv1) (activate act hu1) (activate act hv1) Hact Hq Hc (le_n _) Hi Hj ltac:(discriminate))
      as (vu2 & vv2 & hu2 & hv2 & -> & -> & AV2 & AH2).
    { apply (activate_low act h w 1); [exact Hact|lra|exact AV1]. }
    { apply (activate_low act h w 1); [exact Hact|lra|exact AH1]. }
    cbn [bind fst snd].
    destruct (add_krel2 h w _ _ _ _ _ _ _ AV AV2) as (v3 & w3 & -> & -> & AV3). cbn [bind].
    destruct (add_krel2 h w _ _ _ _ _ _ _ AH AH2) as (v4 & w4 & -> & -> & AV4). cbn [bind fst snd].
    replace (m + 2 * S n) with (S (S m) + 2 * n) by lia. apply IH.
    + apply (activate_low act h w 0); [exact Hact|lra|exact AV3].
    + apply (activate_low act h w 0); [exact Hact|lra|exact AV4].
Qed.

Lemma last_krel2 h w ch P u v : 0 < h -> 0 < w -> krel2 h w 0 ch P u v ->
  exists u' v', conv_layer real_numbers (flat_weights id_emb 4 (fun fi => if fi =? 0 then 1%R else 0%R) 0%R) 4 [1; 1] [1; 1] u = Ok u' /\
    conv_layer real_numbers (flat_weights id_emb 4 (fun fi => if fi =? 0 then 1%R else 0%R) 0%R) 4 [1; 1] [1; 1] v = Ok v' /\
    features u' = 4 /\ features v' = 4 /\
    forall i j, i < h -> j < w -> exists x y, tval (kt u') [i; j] = [x; 0; 0; 0]%R /\ tval (kt v') [i; j] = [y; 0; 0; 0]%R /\ (P i j -> (x < y)%R).
Proof.
  intros Hh Hw (A1 & A2 & A3 & A4 & A5). set (W := flat_weights id_emb 4 (fun fi => if fi =? 0 then 1%R else 0%R) 0%R).
  destruct (conv_2d_ok real_numbers W 4 1 1 h w u) as [-> Tu]; [lia|lia|auto|auto|rewrite A1; f_equal; [lia|f_equal; lia]|].
  destruct (conv_2d_ok real_numbers W 4 1 1 h w v) as [-> Tv]; [lia|lia|auto|auto|rewrite A2; f_equal; [lia|f_equal; lia]|].
  do 2 eexists. split; [reflexivity|]. split; [reflexivity|]. split; [reflexivity|]. split; [reflexivity|]. intros i j Hi Hj. cbn [kt].
  destruct (A5 i j Hi Hj) as (a & b & Ea & Eb & La & F & _ & S).
  assert (G : forall (t : ktensor R) c, features t = ch -> tval (kt t) [i; j] = map id_emb c -> length c = ch ->
    tval (conv_output (zero real_numbers) (plus real_numbers) (times real_numbers) (conv_of W [1; 1] [1; 1] (features t) 4) (kt t)) [i; j] = [addup c; 0; 0; 0]%R).
  { intros t c Ft Et Lc. unfold W. rewrite Ft. rewrite (flat_conv_value real_numbers id_emb id_0 id_plus id_times [1; 1] [1; 1] ch 4 _ 0%R (kt t) (fun _ => c) [i; j]).
    - unfold range. cbn [seq map Nat.eqb id_emb]. replace (Rsum (fun _ : loc => addup c) (raster [1; 1])) with (addup c) by (unfold raster, range; cbn; lra).
      unfold id_emb. repeat (f_equal; try lra).
    - intros w' Hw'. destruct (raster_2 1 1 w' Hw') as (x & y & -> & Hx & Hy). unfold conv_loc, conv_of. cbn [strides dilation_rate map map2].
      replace (i * 1 + x * 1) with i by lia. replace (j * 1 + y * 1) with j by lia. auto. }
  exists (addup a), (addup b). split; [now apply G|]. split; [|exact S]. apply G; auto. rewrite <- (Forall2_length _ _ _ F). exact La.
Qed.

Lemma input_krel2 h w i j (reg : nat -> nat -> Prop) : i < h -> j < w -> (forall x y, reg x y -> x = i /\ y = j) ->
  krel2 h w (-1) 1 reg (expand_and_cast IZR (input_array [h; w] (flipped (h * w) (i * w + j) (-1)))) (expand_and_cast IZR (input_array [h; w] (flipped (h * w) (i * w + j) 1))).
Proof.
  intros Hi Hj Hreg. split; [reflexivity|]. split; [reflexivity|]. split; [reflexivity|]. split; [reflexivity|]. intros x y Hx Hy.
  cbn [expand_and_cast kt tval input_array row_major volume fold_right]. rewrite !Nat.mul_1_r, Nat.add_0_r.
  assert (L : x * w + y < h * w) by nia. rewrite !flipped_nth by exact L.
  exists [IZR (if x * w + y =? i * w + j then (-1)%Z else 1%Z)], [IZR (if x * w + y =? i * w + j then 1%Z else 1%Z)].
  split; [reflexivity|]. split; [reflexivity|]. split; [reflexivity|]. split; [|split].
  - constructor; [|constructor]. destruct (x * w + y =? i * w + j); lra.
  - constructor; [|constructor]. destruct (x * w + y =? i * w + j); lra.
  - intros H. destruct (Hreg x y H) as [-> ->]. rewrite Nat.eqb_refl. unfold addup, Rsum. cbn. lra.
Qed.

Lemma conv_net_2d_sees p act q h w x y i j : increasing_activation (fun x => x) act ->
  ksize2 p = 2 * q + 1 -> 2 <= channels2 p -> i < h -> j < w -> x < h -> y < w -> sees_2d (2 * (depth2 p - 2) + 2) q x y i j ->
  exists W w_last, influences (conditionals (conv_net_2d p W w_last act) [h; w]) (h * w) (x * w + y) (i * w + j).
Proof.
  intros Hact Hq Hc Hi Hj Hx Hy L. exists (fun _ => seeing_2d p), (flat_weights id_emb 4 (fun fi => if fi =? 0 then 1%R else 0%R) 0%R).
  exists (flipped (h * w) (i * w + j) (-1)), (flipped (h * w) (i * w + j) 1). split; [apply flipped_in; auto|]. split; [apply flipped_in; auto|]. split; [intros k; apply flipped_other|].
  unfold conditionals, conv_net_2d. cbv zeta. rewrite location_2. rewrite Nat.div_add_l, (Nat.div_small y w), Nat.add_0_r by lia.
  rewrite (Nat.add_comm (x * w) y), Nat.mod_add, (Nat.mod_small y w) by lia.
  change (increasing_activation id_emb act) in Hact.
  destruct (causal_conv_2d_on p act false q 0 1 i j h w _ _ _ _ Hact Hq Hc ltac:(lia) Hi Hj ltac:(discriminate)
    (input_krel2 h w i j (vreg 0 q i j) Hi Hj ltac:(intros ? ? V; unfold vreg in V; lia)) (input_krel2 h w i j (hreg 0 q i j) Hi Hj ltac:(intros ? ? V; unfold hreg in V; lia)))
    as (vu1 & vv1 & hu1 & hv1 & E1 & E2 & AV1 & AH1). rewrite E1, E2. cbn [bind fst snd].
  destruct (residual_blocks_on p act q i j h w Hact Hq Hc Hi Hj (depth2 p - 2) 1 0 (activate act vu1) (activate act vv1)
    (activate act hu1) (activate act hv1)) as (vu2 & vv2 & hu2 & hv2 & -> & -> & AV2 & AH2).
  { apply (activate_low act h w 1); [exact Hact|lra|exact AV1]. }
  { apply (activate_low act h w 1); [exact Hact|lra|exact AH1]. }
  cbn [bind fst snd].
  destruct (causal_conv_2d_on p act true q (1 + 2 * (depth2 p - 2)) (channels2 p) i j h w _ _ _ _ Hact Hq Hc (le_n _) Hi Hj ltac:(intros; lia) AV2 AH2)
    as (vu3 & vv3 & hu3 & hv3 & -> & -> & AV3 & AH3). cbn [bind fst snd].
  destruct (last_krel2 h w (channels2 p) (hreg' true (S (1 + 2 * (depth2 p - 2))) q i j) (activate act hu3) (activate act hv3)) as (u' & v' & -> & -> & F1 & F2 & V); [lia|lia| |].
  { apply activate_krel2; [exact Hact|]. eapply krel2_weaken; [| |exact AH3]; [lra|auto]. }
  cbn [bind]. unfold vector_to_complex_layer. rewrite F1, F2. replace (4 mod 2 =? 0) with true by reflexivity. cbn [tval].
  destruct (V x y Hx Hy) as (a & b & -> & -> & S). apply Rlt_not_eq. apply (probability_monotone a b). apply S. cbn [hreg'].
  now replace (Datatypes.S (1 + 2 * (depth2 p - 2))) with (2 * (depth2 p - 2) + 2) by lia.
Qed.

Lemma conv_net_2d_blind p W w_last act q h w x y s t : ksize2 p = 2 * q + 1 -> x < h -> y < w ->
  (forall i j, i < h -> j < w -> sees_2d (2 * (depth2 p - 2) + 2) q x y i j -> nth (i * w + j) s 0%Z = nth (i * w + j) t 0%Z) ->
  conditionals (conv_net_2d p W w_last act) [h; w] s (x * w + y) = conditionals (conv_net_2d p W w_last act) [h; w] t (x * w + y).
Proof.
  intros Hq Hx Hy H. unfold conditionals. rewrite location_2. rewrite Nat.div_add_l, (Nat.div_small y w), Nat.add_0_r by lia.
  rewrite (Nat.add_comm (x * w) y), Nat.mod_add, (Nat.mod_small y w) by lia.
  destruct (conv_net_2d_off p W w_last act q (fun i j => i < h /\ j < w /\ nth (i * w + j) s 0%Z <> nth (i * w + j) t 0%Z) h w (input_array [h; w] s) (input_array [h; w] t))
    as (u & v & -> & -> & V); auto; try lia.
  - intros i j Hi Hj D. cbn [input_array tval row_major volume fold_right]. rewrite !Nat.mul_1_r, Nat.add_0_r.
    destruct (Z.eq_dec (nth (i * w + j) s 0%Z) (nth (i * w + j) t 0%Z)) as [E|E]; [exact E|]. exfalso. apply D. auto.
  - apply V; auto. intros i j (Hi & Hj & D) L. apply D. now apply H.
Qed.
