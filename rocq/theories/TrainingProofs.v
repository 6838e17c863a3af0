(** Lemmas about mini batches, gradient accumulation and sample counts. *)
From Coq Require Import List Reals Lra Lia Arith Bool.
From Verif Require Import Base Cplx Vec TrainingModel TrainingSpec.
Import ListNotations.

(** * Mini batches *)
Lemma ceil_div_spec a b : 0 < b -> ceil_div a b = if a mod b =? 0 then a / b else S (a / b).
Proof.
  intros Hb. unfold ceil_div. pose proof (Nat.div_mod a b ltac:(lia)) as D.
  pose proof (Nat.mod_upper_bound a b ltac:(lia)) as M.
  destruct (Nat.eqb_spec (a mod b) 0) as [E|E].
  - symmetry. apply (Nat.div_unique _ _ _ (b - 1)); nia.
  - symmetry. apply (Nat.div_unique _ _ _ (a mod b - 1)); nia.
Qed.

Lemma new_generator_ok {X} (G : generator X) B mini : 0 < B -> mini <> Some 0 ->
  exists G', set_batch_size G B mini = Ok G' /\ gen_batch_size G' = B /\
    0 < gen_mini G' <= B /\ gen_mini G' = Nat.min B (match mini with None => B | Some m => m end) /\
    gen_freq G' = ceil_div B (gen_mini G') /\ gen_idx G' = B /\ gen_fetched G' = gen_fetched G.
Proof.
  intros HB Hm. unfold set_batch_size.
  set (m := match mini with None => B | Some m => m end).
  assert (0 < m) by (destruct mini as [[|x]|]; subst m; try congruence; lia).
  destruct (Nat.ltb_spec B m).
  - destruct (Nat.eqb_spec B 0); [lia|]. eexists. split; [reflexivity|]. cbn. repeat split; lia.
  - destruct (Nat.eqb_spec m 0); [lia|]. eexists. split; [reflexivity|]. cbn. repeat split; lia.
Qed.

(** State of the generator after serving [n] mini batches from a state with idx = batch size. *)
Definition floor_freq {X} (G : generator X) : nat := gen_batch_size G / gen_mini G.

Lemma floor_freq_pos {X} (G : generator X) : 0 < gen_mini G <= gen_batch_size G -> 0 < floor_freq G.
Proof. intros H. unfold floor_freq. apply Nat.div_str_pos. lia. Qed.

(** [served q n]: n-th state: number of fetches and position. *)
Lemma serve_state {X} (nb : nat -> list X) (G : generator X) n :
  0 < gen_mini G <= gen_batch_size G -> gen_idx G = gen_batch_size G ->
  let q := floor_freq G in
  let G' := fst (serve nb G (S n)) in
  gen_batch_size G' = gen_batch_size G /\ gen_mini G' = gen_mini G /\ gen_freq G' = gen_freq G /\
  gen_fetched G' = gen_fetched G + n / q + 1 /\
  gen_idx G' = (n mod q + 1) * gen_mini G /\
  gen_data G' = nb (gen_fetched G + n / q) /\
  snd (serve nb G (S n)) = snd (serve nb G n) ++ [slice (nb (gen_fetched G + n / q)) (n mod q * gen_mini G) ((n mod q + 1) * gen_mini G)].
Proof.
  intros Hm Hi q. pose proof (floor_freq_pos G Hm) as Hq. fold q in Hq.
  assert (Q1 : q * gen_mini G <= gen_batch_size G).
  { unfold q, floor_freq. rewrite Nat.mul_comm. apply Nat.mul_div_le. lia. }
  assert (Q2 : gen_batch_size G < (q + 1) * gen_mini G).
  { unfold q, floor_freq. pose proof (Nat.mul_succ_div_gt (gen_batch_size G) (gen_mini G) ltac:(lia)). nia. }
  induction n as [|n IH].
  - intros G'. subst G'. cbn [serve]. unfold next_mini_batch.
    rewrite Hi. destruct (Nat.ltb_spec (gen_batch_size G) (gen_batch_size G + gen_mini G)); [|lia].
    cbn [fst snd gen_batch_size gen_mini gen_freq gen_fetched gen_idx gen_data].
    rewrite Nat.div_0_l, Nat.mod_0_l by lia. rewrite !Nat.add_0_r, !Nat.add_0_l, Nat.mul_1_l, Nat.mul_0_l, Nat.sub_diag.
    repeat (split; [lia || reflexivity|]). reflexivity.
  - cbv zeta in IH. destruct IH as (I1 & I2 & I3 & I4 & I5 & I6 & I7).
    intros G'. subst G'.
    remember (serve nb G (S n)) as st eqn:Est. destruct st as [G1 out]. cbn [fst snd] in *.
    change (serve nb G (S (S n))) with (let '(G1, out) := serve nb G (S n) in let '(G2, b) := next_mini_batch nb G1 in (G2, out ++ [b])).
    rewrite <- Est. unfold next_mini_batch. rewrite I1, I2, I5.
    pose proof (Nat.div_mod n q ltac:(lia)) as D. pose proof (Nat.mod_upper_bound n q ltac:(lia)) as M.
    destruct (Nat.ltb_spec (gen_batch_size G) ((n mod q + 1) * gen_mini G + gen_mini G)) as [F|F].
    + assert (n mod q = q - 1) by nia.
      assert (Dv : S n / q = n / q + 1) by (symmetry; apply (Nat.div_unique _ _ _ 0); nia).
      assert (Md : S n mod q = 0) by (symmetry; apply (Nat.mod_unique _ _ (n / q + 1)); nia).
      cbn [fst snd gen_batch_size gen_mini gen_freq gen_fetched gen_idx gen_data].
      rewrite I4, I3, Dv, Md, !Nat.add_0_l, Nat.mul_1_l, Nat.mul_0_l, Nat.sub_diag, Nat.add_assoc.
      repeat (split; [lia || reflexivity|]). reflexivity.
    + assert (n mod q + 1 < q) by nia.
      assert (Dv : S n / q = n / q) by (symmetry; apply (Nat.div_unique _ _ _ (n mod q + 1)); nia).
      assert (Md : S n mod q = n mod q + 1) by (symmetry; apply (Nat.mod_unique _ _ (n / q)); nia).
      cbn [fst snd gen_batch_size gen_mini gen_freq gen_fetched gen_idx gen_data].
      rewrite I4, I3, I6, Dv, Md.
      split; [reflexivity|]. split; [reflexivity|]. split; [reflexivity|]. split; [reflexivity|].
      split; [lia|]. split; [reflexivity|].
      f_equal. f_equal. f_equal; lia.
Qed.

Lemma serve_length {X} (nb : nat -> list X) G n : length (snd (serve nb G n)) = n.
Proof.
  induction n; cbn [serve]; auto. destruct (serve nb G n) as [G1 out]. cbn [snd] in IHn.
  unfold next_mini_batch. cbn [snd]. rewrite app_length. cbn [length]. lia.
Qed.

Lemma serve_nth {X} (nb : nat -> list X) (G : generator X) N n : n < N ->
  0 < gen_mini G <= gen_batch_size G -> gen_idx G = gen_batch_size G ->
  nth_error (snd (serve nb G N)) n =
  Some (slice (nb (gen_fetched G + n / floor_freq G)) (n mod floor_freq G * gen_mini G) ((n mod floor_freq G + 1) * gen_mini G)).
Proof.
  intros Hn Hm Hi. induction N as [|N IH]; [lia|].
  pose proof (serve_state nb G N Hm Hi) as S. cbv zeta in S. destruct S as (_ & _ & _ & _ & _ & _ & ->).
  destruct (Nat.eq_dec n N) as [->|Ne].
  - rewrite nth_error_app2; rewrite serve_length; [|lia]. now rewrite Nat.sub_diag.
  - rewrite nth_error_app1 by (rewrite serve_length; lia). apply IH. lia.
Qed.

Lemma skipn_skipn' {X} (l : list X) a b : skipn a (skipn b l) = skipn (b + a) l.
Proof.
  revert l. induction b as [|b IH]; intros l; [reflexivity|]. destruct l as [|x l]; cbn [skipn Nat.add].
  - now rewrite skipn_nil.
  - apply IH.
Qed.

Lemma nth_error_firstn' {X} (l : list X) n i : i < n -> nth_error (firstn n l) i = nth_error l i.
Proof.
  revert l i. induction n as [|n IH]; intros l i H; [lia|]. destruct l, i; cbn [firstn nth_error]; auto. apply IH. lia.
Qed.
Lemma nth_error_skipn' {X} (l : list X) k i : nth_error (skipn k l) i = nth_error l (k + i).
Proof.
  revert l. induction k as [|k IH]; intros l; [reflexivity|]. destruct l; cbn [skipn Nat.add nth_error]; auto.
  now destruct i.
Qed.

Lemma slices_concat {X} (l : list X) m q : length l = q * m ->
  concat (map (fun i => slice l (i * m) ((i + 1) * m)) (range q)) = l.
Proof.
  revert l. unfold range. induction q as [|q IH]; intros l H; cbn [seq map concat].
  - destruct l; [reflexivity|discriminate].
  - unfold slice at 1. replace ((0 + 1) * m - 0 * m) with m by lia. cbn [Nat.mul skipn].
    rewrite <- seq_shift, map_map.
    rewrite (map_ext _ (fun i => slice (skipn m l) (i * m) ((i + 1) * m))).
    + rewrite IH. { apply firstn_skipn. } rewrite skipn_length. lia.
    + intros i. unfold slice. replace ((S i + 1) * m - S i * m) with ((i + 1) * m - i * m) by lia.
      f_equal. rewrite skipn_skipn'. reflexivity.
Qed.

Lemma mini_batches_any {X} (nb : nat -> list X) (G0 : generator X) B mini : 0 < B -> mini <> Some 0 ->
  exists G, set_batch_size G0 B mini = Ok G /\
    let m := gen_mini G in
    let q := B / m in
    0 < m <= B /\
    (gen_freq G = q <-> B mod m = 0) /\ (q < gen_freq G <-> B mod m <> 0) /\
    forall N n, n < N -> nth_error (snd (serve nb G N)) n =
       Some (firstn m (skipn (n mod q * m) (nb (gen_fetched G0 + n / q)))).
Proof.
  intros HB Hm. destruct (new_generator_ok G0 B mini HB Hm) as (G & E & EB & Em & _ & Ef & Ei & Eg).
  exists G. split; [exact E|]. intros m q. subst m q.
  split; [lia|].
  pose proof (ceil_div_spec B (gen_mini G) ltac:(lia)) as C.
  split; [|split].
  - rewrite Ef, C. destruct (Nat.eqb_spec (B mod gen_mini G) 0); split; intros; auto; lia.
  - rewrite Ef, C. destruct (Nat.eqb_spec (B mod gen_mini G) 0); split; intros; auto; lia.
  - intros N n Hn. rewrite serve_nth by (rewrite ?EB; auto; lia).
    unfold floor_freq. rewrite EB, Eg. unfold slice. do 3 f_equal. lia.
Qed.

Lemma mini_batches_divide {X} (nb : nat -> list X) (G0 : generator X) B mini : 0 < B -> mini <> Some 0 ->
  (forall k, length (nb k) = B) ->
  exists G, set_batch_size G0 B mini = Ok G /\
    (B mod gen_mini G = 0 -> forall k N, (k + 1) * gen_freq G <= N ->
       concat (firstn (gen_freq G) (skipn (k * gen_freq G) (snd (serve nb G N)))) = nb (gen_fetched G0 + k)).
Proof.
  intros HB Hm HL. destruct (mini_batches_any nb G0 B mini HB Hm) as (G & E & H). cbv zeta in H.
  destruct H as (Hmm & Hf & _ & Hn). exists G. split; [exact E|]. intros Hd k N HN.
  apply Hf in Hd as Hfq. set (q := B / gen_mini G) in *.
  assert (Hq : 0 < q) by (apply Nat.div_str_pos; lia).
  assert (HBq : B = q * gen_mini G).
  { pose proof (Nat.div_mod B (gen_mini G) ltac:(lia)). unfold q. lia. }
  rewrite <- (slices_concat (nb (gen_fetched G0 + k)) (gen_mini G) q) by (rewrite HL; lia).
  f_equal. rewrite Hfq.
  apply list_ext. intros i.
  destruct (Nat.lt_ge_cases i q) as [Hi|Hi].
  - rewrite nth_error_map. rewrite (nth_error_nth' _ 0) by (rewrite range_length; auto).
    unfold range. rewrite seq_nth by auto. cbn [option_map].
    rewrite nth_error_firstn', nth_error_skipn' by auto.
    rewrite Hn by nia. f_equal.
    assert ((k * q + i) / q = k) as -> by (symmetry; apply (Nat.div_unique _ _ _ i); nia).
    assert ((k * q + i) mod q = i) as -> by (symmetry; apply (Nat.mod_unique _ _ k); nia).
    unfold slice. f_equal. lia.
  - rewrite (proj2 (nth_error_None _ i)) by (rewrite firstn_length; lia).
    symmetry. apply nth_error_None. rewrite map_length, range_length. lia.
Qed.

(** * Gradient accumulation *)
Local Open Scope R_scope.

Lemma vsum_snoc d l g : (forall v, In v l -> length v = d) -> length g = d -> vadd (vsum d l) g = vsum d (l ++ [g]).
Proof.
  intros H Hg.
  assert (H2 : forall v, In v (l ++ [g]) -> length v = d).
  { intros v Hv. apply in_app_or in Hv. destruct Hv as [Hv|[<-|[]]]; auto. }
  apply vec_ext.
  - rewrite vadd_length, !vsum_length; auto. now rewrite vsum_length.
  - intros i. rewrite nth_vadd by (rewrite vsum_length; auto). rewrite !nth_vsum by auto.
    rewrite Rsum_app, Rsum_cons, Rsum_nil. lra.
Qed.

Lemma scaled_gradient (sum : bool) f g :
  (if sum then g else map (fun x => x / INR f) g) = vscale (step_scale sum f) g.
Proof.
  unfold step_scale, vscale. destruct sum.
  - rewrite <- (map_id g) at 1. apply map_ext. intros; lra.
  - apply map_ext. intros. unfold Rdiv. apply Rmult_comm.
Qed.

Section Accumulate.
  Context {S : Type} (O : optimizer S) (d f : nat) (sum : bool) (decay : R) (ar : list R -> list R)
    (gradient : nat -> list R -> list R) (s0 : S).
  Hypothesis Hf : (0 < f)%nat.
  Hypothesis Hd : sized O d gradient.
  Let W k := window_updates O d f (step_scale sum f) ar gradient s0 k.
  Let part k r := map (fun i => vscale (step_scale sum f) (gradient (k * f + i)%nat (weights O (W k)))) (seq 0 r).

  Lemma part_sized k r v : In v (part k r) -> length v = d.
  Proof. intros H. apply in_map_iff in H. destruct H as (i & <- & _). rewrite vscale_length. apply Hd. Qed.

  Definition ema_state (k : nat) (e : list R) : Prop :=
    length e = d /\
    forall i, nth i e 0 = Rsum (fun j => (1 - decay) * decay ^ (k - j) * nth i (weights O (W j)) 0) (seq 1 k).

  Lemma ema_step k e : ema_state k e ->
    ema_state (Datatypes.S k) (map2 (fun e p => e * decay + (1 - decay) * p) e (weights O (W (Datatypes.S k)))).
  Proof.
    intros [L H]. destruct Hd as [Hw _]. split.
    - rewrite map2_length, L, Hw. lia.
    - intros i. rewrite seq_S, Rsum_app, Rsum_cons, Rsum_nil.
      replace (1 + k)%nat with (Datatypes.S k) by lia. rewrite Nat.sub_diag. cbn [pow].
      assert (E : nth i (map2 (fun e p => e * decay + (1 - decay) * p) e (weights O (W (Datatypes.S k)))) 0
                  = nth i e 0 * decay + (1 - decay) * nth i (weights O (W (Datatypes.S k))) 0).
      { assert (L2 : length e = length (weights O (W (Datatypes.S k)))) by (rewrite Hw; auto).
        revert L2. generalize (weights O (W (Datatypes.S k))). clear.
        revert i. induction e as [|x e IH]; intros i [|y l] H; try discriminate; cbn [map2].
        - destruct i; cbn; lra.
        - destruct i; cbn [nth]; [lra|]. apply IH. now injection H. }
      rewrite E, H.
      rewrite (Rsum_ext (fun j => (1 - decay) * decay ^ (Datatypes.S k - j) * nth i (weights O (W j)) 0)
                        (fun j => decay * ((1 - decay) * decay ^ (k - j) * nth i (weights O (W j)) 0)) (seq 1 k)).
      + rewrite Rsum_scal. lra.
      + intros j Hj. apply in_seq in Hj. replace (Datatypes.S k - j)%nat with (Datatypes.S (k - j)) by lia. cbn [pow]. ring.
  Qed.

  Lemma train_window k : forall r, (r < f)%nat ->
    exists A, convert_to_accumulate O s0 f = Ok A /\
    exists B, train O sum decay ar gradient A (k * f + r) = Ok B /\
      acc_iterations B = (k * f + r)%nat /\ acc_freq B = f /\ inner B = W k /\
      accumulators B = vsum d (part k r) /\
      (0 < decay -> total_iterations B = k /\ ema_state k (params_ema B)).
  Proof.
    destruct Hd as [Hw Hg].
    assert (EA : exists A, convert_to_accumulate O s0 f = Ok A).
    { unfold convert_to_accumulate. destruct (Nat.ltb_spec f 1); [lia|]. eauto. }
    destruct EA as [A EA]. 
    assert (HA : acc_iterations A = 0%nat /\ acc_freq A = f /\ inner A = s0 /\ accumulators A = vzero d /\
                 total_iterations A = 0%nat /\ params_ema A = vzero d).
    { unfold convert_to_accumulate in EA. destruct (Nat.ltb_spec f 1); [lia|]. injection EA as <-. cbn. rewrite !Hw. auto 10. }
    enough (H : forall n, exists B, train O sum decay ar gradient A n = Ok B /\
              acc_iterations B = n /\ acc_freq B = f /\ inner B = W (n / f) /\
              accumulators B = vsum d (part (n / f) (n mod f)) /\
              (0 < decay -> total_iterations B = (n / f)%nat /\ ema_state (n / f) (params_ema B))).
    { intros r Hr. exists A. split; [exact EA|]. destruct (H (k * f + r)%nat) as (B & HB).
      replace ((k * f + r) / f)%nat with k in HB by (apply (Nat.div_unique _ _ _ r); lia).
      replace ((k * f + r) mod f)%nat with r in HB by (apply (Nat.mod_unique _ _ k); lia).
      exists B. exact HB. }
    destruct HA as (A1 & A2 & A3 & A4 & A5 & A6).
    induction n as [|n IH].
    - exists A. rewrite Nat.div_0_l, Nat.mod_0_l by lia. cbn [train]. split; [reflexivity|].
      split; [auto|]. split; [auto|]. split; [auto|]. split; [auto|]. intros _. split; [auto|]. rewrite A6.
      split; [apply vzero_length|]. intros i. cbn [seq]. now rewrite Rsum_nil, nth_vzero.
    - destruct IH as (B & EB & B1 & B2 & B3 & B4 & B5). cbn [train]. rewrite EB. cbn [bind].
      unfold train_step. rewrite B1, B2, B3, B4. rewrite scaled_gradient.
      destruct (Nat.eqb_spec f 0); [lia|].
      pose proof (Nat.div_mod n f ltac:(lia)) as D. pose proof (Nat.mod_upper_bound n f ltac:(lia)) as M.
      replace (n + 1)%nat with (Datatypes.S n) by lia.
      assert (Acc : vadd (vsum d (part (n / f) (n mod f)))
                 (vscale (step_scale sum f) (gradient n (weights O (W (n / f)))))
               = vsum d (part (n / f) (n mod f + 1))).
      { rewrite vsum_snoc.
        - f_equal. unfold part. replace (n mod f + 1)%nat with (Datatypes.S (n mod f)) by lia.
          rewrite seq_S, map_app. cbn [map]. do 3 f_equal. f_equal. lia.
        - intros v. apply part_sized.
        - rewrite vscale_length. apply Hg. }
      rewrite Acc.
      destruct (Nat.eqb_spec (Datatypes.S n mod f) 0) as [Z|Z].
      + assert (n mod f = f - 1)%nat.
        { destruct (Nat.lt_ge_cases (n mod f + 1) f); [|lia].
          assert (Datatypes.S n mod f = n mod f + 1)%nat by (symmetry; apply (Nat.mod_unique _ _ (n / f)); lia). lia. }
        assert (Dv : (Datatypes.S n / f = Datatypes.S (n / f))%nat) by (symmetry; apply (Nat.div_unique _ _ _ 0); nia).
        eexists. split; [reflexivity|].
        rewrite Dv, Z.
        cbn [acc_iterations acc_freq inner accumulators total_iterations params_ema].
        assert (Ew : apply_gradients O (W (n / f)) (ar (vsum d (part (n / f) (n mod f + 1)))) = W (Datatypes.S (n / f))).
        { unfold W at 2. cbn [window_updates]. fold (W (n / f)). unfold part.
          replace (n mod f + 1)%nat with f by lia. reflexivity. }
        split; [reflexivity|]. split; [reflexivity|]. split; [exact Ew|]. split.
        { rewrite vsum_length by (intros v; apply part_sized). reflexivity. }
        intros Hdec. destruct (Rlt_dec 0 decay); [|lra]. destruct (B5 Hdec) as [B6 B7].
        split; [lia|]. rewrite Ew. now apply ema_step.
      + assert (n mod f + 1 < f)%nat.
        { destruct (Nat.lt_ge_cases (n mod f + 1) f); auto. exfalso. apply Z.
          symmetry. apply (Nat.mod_unique _ _ (Datatypes.S (n / f))); nia. }
        assert (Dv : (Datatypes.S n / f = n / f)%nat) by (symmetry; apply (Nat.div_unique _ _ _ (n mod f + 1)); lia).
        assert (Md : (Datatypes.S n mod f = n mod f + 1)%nat) by (symmetry; apply (Nat.mod_unique _ _ (n / f)); lia).
        eexists. split; [reflexivity|]. rewrite Dv, Md.
        cbn [acc_iterations acc_freq inner accumulators total_iterations params_ema]. auto 10.
  Qed.
End Accumulate.

(** Changing the frequency. *)
Lemma map_vscale_sized c d l : (forall v, In v l -> length v = d) -> forall v, In v (map (vscale c) l) -> length v = d.
Proof. intros H v Hv. apply in_map_iff in Hv. destruct Hv as (u & <- & Hu). rewrite vscale_length. auto. Qed.

Lemma train_until {S} (O : optimizer S) d sum decay ar gradient (A : accumulating S) :
  sized O d gradient -> length (accumulators A) = d -> (0 < acc_freq A)%nat ->
  let f := acc_freq A in
  let m := (f - acc_iterations A mod f)%nat in
  let part r := map (fun i => vscale (step_scale sum f) (gradient i (weights O (inner A)))) (seq 0 r) in
  (forall r, (r < m)%nat -> exists B, train O sum decay ar gradient A r = Ok B /\ inner B = inner A /\
     acc_iterations B = (acc_iterations A + r)%nat /\ acc_freq B = f /\
     accumulators B = vadd (accumulators A) (vsum d (part r))) /\
  (exists B, train O sum decay ar gradient A m = Ok B /\ acc_iterations B = (acc_iterations A + m)%nat /\
     inner B = apply_gradients O (inner A) (ar (vadd (accumulators A) (vsum d (part m)))) /\
     accumulators B = vzero d).
Proof.
  intros [Hw Hg] HL Hf f m part.
  assert (Ps : forall r v, In v (part r) -> length v = d).
  { intros r v Hv. apply in_map_iff in Hv. destruct Hv as (i & <- & _). rewrite vscale_length. apply Hg. }
  assert (Vl : forall r, length (vsum d (part r)) = d) by (intros r; apply vsum_length, Ps).
  pose proof (Nat.div_mod (acc_iterations A) f ltac:(lia)) as D.
  pose proof (Nat.mod_upper_bound (acc_iterations A) f ltac:(lia)) as M.
  assert (H1 : forall r, (r < m)%nat -> exists B, train O sum decay ar gradient A r = Ok B /\ inner B = inner A /\
     acc_iterations B = (acc_iterations A + r)%nat /\ acc_freq B = f /\
     accumulators B = vadd (accumulators A) (vsum d (part r))).
  { induction r as [|r IH]; intros Hr.
    - exists A. cbn [train]. split; [reflexivity|]. split; [reflexivity|]. split; [lia|]. split; [reflexivity|].
      apply vec_ext.
      + rewrite vadd_length; auto. rewrite Vl; auto.
      + intros i. rewrite nth_vadd by (rewrite Vl; auto). cbn [part seq map vsum fold_right].
        rewrite nth_vzero. lra.
    - destruct (IH ltac:(lia)) as (B & EB & B1 & B2 & B3 & B4). cbn [train]. rewrite EB. cbn [bind].
      unfold train_step. rewrite B1, B2, B3, B4, scaled_gradient.
      destruct (Nat.eqb_spec f 0); [lia|].
      assert (E : ((acc_iterations A + r + 1) mod f = acc_iterations A mod f + r + 1)%nat).
      { symmetry. apply (Nat.mod_unique _ _ (acc_iterations A / f)); lia. }
      destruct (Nat.eqb_spec ((acc_iterations A + r + 1) mod f) 0); [lia|].
      eexists. split; [reflexivity|]. cbn [inner acc_iterations acc_freq accumulators].
      split; [auto|]. split; [lia|]. split; [auto|].
      apply vec_ext.
      + repeat (first [rewrite Vl | rewrite vscale_length | rewrite Hg | rewrite HL | rewrite vadd_length]); auto.
      + intros i. rewrite !nth_vadd; repeat (first [rewrite Vl | rewrite vscale_length | rewrite Hg | rewrite HL | rewrite vadd_length]); auto.
        rewrite !nth_vsum by apply Ps. unfold part. rewrite seq_S, map_app, Rsum_app. cbn [map].
        rewrite Rsum_cons, Rsum_nil. cbn [Nat.add]. lra. }
  split; [exact H1|].
  assert (Hm : exists r, m = Datatypes.S r) by (exists (m - 1)%nat; lia). destruct Hm as [r Em].
  destruct (H1 r ltac:(lia)) as (B & EB & B1 & B2 & B3 & B4). rewrite Em. cbn [train]. rewrite EB. cbn [bind].
  unfold train_step. rewrite B1, B2, B3, B4, scaled_gradient.
  destruct (Nat.eqb_spec f 0); [lia|].
  assert (E : ((acc_iterations A + r + 1) mod f = 0)%nat).
  { symmetry. apply (Nat.mod_unique _ _ (acc_iterations A / f + 1)); nia. }
  rewrite E, Nat.eqb_refl.
  eexists. split; [reflexivity|]. cbn [inner acc_iterations acc_freq accumulators].
  assert (V : vadd (vadd (accumulators A) (vsum d (part r))) (vscale (step_scale sum f) (gradient r (weights O (inner A))))
              = vadd (accumulators A) (vsum d (part (Datatypes.S r)))).
  { apply vec_ext.
    + repeat (first [rewrite Vl | rewrite vscale_length | rewrite Hg | rewrite HL | rewrite vadd_length]); auto.
    + intros i. rewrite !nth_vadd; repeat (first [rewrite Vl | rewrite vscale_length | rewrite Hg | rewrite HL | rewrite vadd_length]); auto.
      rewrite !nth_vsum by apply Ps. unfold part. rewrite seq_S, map_app, Rsum_app. cbn [map].
      rewrite Rsum_cons, Rsum_nil. cbn [Nat.add]. lra. }
  split; [lia|]. split; [rewrite V; reflexivity|]. f_equal.
  rewrite V. repeat (first [rewrite Vl | rewrite vscale_length | rewrite Hg | rewrite HL | rewrite vadd_length]); auto.
Qed.

Lemma gap_short n f : (0 < f)%nat -> (f - n mod f < f <-> n mod f <> 0)%nat.
Proof. intros H. pose proof (Nat.mod_upper_bound n f ltac:(lia)). lia. Qed.

(** * Mini batch training equals full batch training *)
Section Fit.
  Context {X S : Type} (O : optimizer S) (d B m : nat) (sum : bool)
    (nb : nat -> list R -> list X) (sg : list R -> X -> list R) (s0 : S).
  Hypothesis Hm : (0 < m)%nat.
  Hypothesis HB : (0 < B)%nat.
  Hypothesis Hdiv : (B mod m = 0)%nat.
  Hypothesis HnB : forall k w, length (nb k w) = B.
  Hypothesis Hw : forall s, length (weights O s) = d.
  Hypothesis Hsg : forall w x, length (sg w x) = d.
  Let q := (B / m)%nat.
  Let Gr n w := mean_gradient d sg w (slice (nb (n / q)%nat w) (n mod q * m) ((n mod q + 1) * m)).

  Lemma B_eq : B = (q * m)%nat.
  Proof. pose proof (Nat.div_mod B m ltac:(lia)). unfold q. lia. Qed.
  Lemma q_pos : (0 < q)%nat.
  Proof. pose proof B_eq. destruct q; lia. Qed.

  Lemma map_sg_sized w l v : In v (map (sg w) l) -> length v = d.
  Proof. intros H. apply in_map_iff in H. destruct H as (x & <- & _). apply Hsg. Qed.

  Lemma Gr_sized : sized O d Gr.
  Proof.
    split; auto. intros n w. unfold Gr, mean_gradient. rewrite vscale_length. apply vsum_length. apply map_sg_sized.
  Qed.

  Definition gen_at (n : nat) (w : list R) (G : generator X) : Prop :=
    gen_batch_size G = B /\ gen_mini G = m /\
    if (n mod q =? 0)%nat then (B < gen_idx G + m)%nat /\ gen_fetched G = (n / q)%nat
    else gen_idx G = (n mod q * m)%nat /\ gen_fetched G = (n / q + 1)%nat /\ gen_data G = nb (n / q)%nat w.

  Lemma gen_step n w G : gen_at n w G ->
    exists G2, next_mini_batch (fun c => nb c w) G =
               (G2, slice (nb (n / q)%nat w) (n mod q * m) ((n mod q + 1) * m)) /\
      gen_batch_size G2 = B /\ gen_mini G2 = m /\ gen_idx G2 = ((n mod q + 1) * m)%nat /\
      gen_fetched G2 = (n / q + 1)%nat /\ gen_data G2 = nb (n / q)%nat w.
  Proof.
    pose proof B_eq as Bq. pose proof q_pos as Hq.
    pose proof (Nat.mod_upper_bound n q ltac:(lia)) as M.
    intros (G1 & G2 & G3). unfold next_mini_batch. rewrite G1, G2.
    destruct (Nat.eqb_spec (n mod q) 0) as [Z|Z].
    - destruct G3 as [G3 G4]. destruct (Nat.ltb_spec B (gen_idx G + m)); [|lia].
      eexists. split; [f_equal; rewrite G4, Z; cbn [Nat.add Nat.mul]; f_equal; lia|].
      cbn [gen_batch_size gen_mini gen_idx gen_fetched gen_data]. rewrite G4, Z.
      split; [auto|]. split; [auto|]. split; [lia|]. split; [lia|]. reflexivity.
    - destruct G3 as (G3 & G4 & G5). rewrite G3.
      destruct (Nat.ltb_spec B (n mod q * m + m)); [nia|].
      eexists. split; [f_equal; rewrite G5; f_equal; lia|].
      cbn [gen_batch_size gen_mini gen_idx gen_fetched gen_data]. rewrite G4, G5.
      split; [auto|]. split; [auto|]. split; [lia|]. auto.
  Qed.

  Lemma train_step_inner A g B' : train_step O sum 0 (fun v => v) A g = Ok B' ->
    ((acc_iterations A + 1) mod acc_freq A <> 0)%nat -> inner B' = inner A.
  Proof.
    unfold train_step. destruct (acc_freq A =? 0)%nat; [discriminate|]. intros H Z.
    destruct (Nat.eqb_spec ((acc_iterations A + 1) mod acc_freq A) 0); [congruence|]. now injection H as <-.
  Qed.

  Lemma fit_train G A n : gen_at 0 (weights O s0) G -> convert_to_accumulate O s0 q = Ok A ->
    exists G2 A2, fit O sum d nb sg G A n = Ok (G2, A2) /\
      train O sum 0 (fun v => v) Gr A n = Ok A2 /\ gen_at n (weights O (inner A2)) G2 /\
      acc_iterations A2 = n /\ acc_freq A2 = q.
  Proof.
    pose proof B_eq as Bq. pose proof q_pos as Hq.
    intros HG HA. induction n as [|n IH].
    - exists G, A. unfold convert_to_accumulate in HA. destruct (Nat.ltb_spec q 1); [lia|]. injection HA as <-.
      cbn [fit train inner acc_iterations acc_freq]. auto.
    - destruct IH as (G1 & A1 & E1 & T1 & I1 & N1 & F1). cbn [fit train]. rewrite E1, T1. cbn [bind].
      destruct (gen_step n _ G1 I1) as (G2 & E2 & J1 & J2 & J3 & J4 & J5). rewrite E2.
      assert (Eg : mean_gradient d sg (weights O (inner A1))
                     (slice (nb (n / q) (weights O (inner A1))) (n mod q * m) ((n mod q + 1) * m))
                   = Gr n (weights O (inner A1))) by reflexivity.
      rewrite Eg.
      destruct (train_window O d q sum 0 (fun v => v) Gr s0 Hq Gr_sized (Datatypes.S n / q)%nat (Datatypes.S n mod q)) as (A' & EA' & B' & EB' & B1 & B2 & _).
      { apply Nat.mod_upper_bound. lia. }
      rewrite EA' in HA. injection HA as <-.
      pose proof (Nat.div_mod (Datatypes.S n) q ltac:(lia)) as D'.
      replace (Datatypes.S n / q * q + Datatypes.S n mod q)%nat with (Datatypes.S n) in EB', B1 by lia.
      cbn [train] in EB'. rewrite T1 in EB'. cbn [bind] in EB'. rewrite EB'. cbn [bind].
      exists G2, B'. split; [reflexivity|]. split; [reflexivity|].
      split; [|auto].
      split; [auto|]. split; [auto|].
      pose proof (Nat.div_mod n q ltac:(lia)) as D. pose proof (Nat.mod_upper_bound n q ltac:(lia)) as M.
      destruct (Nat.lt_ge_cases (n mod q + 1) q) as [L|L].
      + assert (Md : (Datatypes.S n mod q = n mod q + 1)%nat) by (symmetry; apply (Nat.mod_unique _ _ (n / q)); lia).
        assert (Dv : (Datatypes.S n / q = n / q)%nat) by (symmetry; apply (Nat.div_unique _ _ _ (n mod q + 1)); lia).
        rewrite Md, Dv. destruct (Nat.eqb_spec (n mod q + 1) 0); [lia|].
        split; [auto|]. split; [auto|]. rewrite J5. f_equal. f_equal. symmetry.
        eapply train_step_inner; [exact EB'|]. rewrite N1, F1. replace (n + 1)%nat with (Datatypes.S n) by lia. lia.
      + assert (Md : (Datatypes.S n mod q = 0)%nat) by (symmetry; apply (Nat.mod_unique _ _ (n / q + 1)); nia).
        assert (Dv : (Datatypes.S n / q = n / q + 1)%nat) by (symmetry; apply (Nat.div_unique _ _ _ 0); nia).
        rewrite Md, Dv. cbn [Nat.eqb]. split; [nia|auto].
  Qed.

  Lemma window_full k :
    window_updates O d q (step_scale sum q) (fun v => v) Gr s0 k =
    full_batch_training O d (if sum then INR q else 1) nb sg s0 k.
  Proof.
    pose proof B_eq as Bq. pose proof q_pos as Hq.
    induction k as [|k IH]; [reflexivity|]. cbn [window_updates full_batch_training].
    rewrite IH. f_equal. set (t := full_batch_training _ _ _ _ _ _ _). set (w := weights O t).
    apply vec_ext.
    - rewrite vsum_length, !vscale_length, vsum_length; auto.
      + apply map_sg_sized.
      + intros v Hv. apply in_map_iff in Hv. destruct Hv as (i & <- & _). rewrite vscale_length. apply Gr_sized.
    - intros i. rewrite nth_vsum. 2: { intros v Hv. apply in_map_iff in Hv. destruct Hv as (j & <- & _). rewrite vscale_length. apply Gr_sized. }
      rewrite Rsum_map, !nth_vscale, nth_vsum by apply map_sg_sized. rewrite HnB, Rsum_map.
      rewrite (Rsum_ext _ (fun j => step_scale sum q * / INR m * Rsum (fun x => nth i (sg w x) 0) (slice (nb k w) (j * m) ((j + 1) * m)))).
      2: { intros j Hj. apply in_seq in Hj. rewrite nth_vscale. unfold Gr.
           assert ((k * q + j) / q = k)%nat as -> by (symmetry; apply (Nat.div_unique _ _ _ j); nia).
           assert ((k * q + j) mod q = j)%nat as -> by (symmetry; apply (Nat.mod_unique _ _ k); nia).
           unfold mean_gradient. rewrite nth_vscale, nth_vsum by apply map_sg_sized. rewrite Rsum_map.
           assert (length (slice (nb k w) (j * m) ((j + 1) * m)) = m) as ->.
           { unfold slice. rewrite firstn_length, skipn_length, HnB. nia. }
           ring. }
      rewrite Rsum_scal.
      assert (E : Rsum (fun j => Rsum (fun x => nth i (sg w x) 0) (slice (nb k w) (j * m) ((j + 1) * m))) (seq 0 q)
                  = Rsum (fun x => nth i (sg w x) 0) (nb k w)).
      { transitivity (Rsum (fun x => nth i (sg w x) 0) (concat (map (fun j => slice (nb k w) (j * m) ((j + 1) * m)) (range q)))).
        - rewrite <- flat_map_concat_map. unfold range. now rewrite Rsum_flat_map.
        - rewrite slices_concat by (rewrite HnB; exact Bq). reflexivity. }
      rewrite E. rewrite Bq, mult_INR.
      assert (INR q <> 0) by (apply not_0_INR; lia). assert (INR m <> 0) by (apply not_0_INR; lia).
      unfold step_scale. destruct sum; field; auto.
  Qed.

  Lemma fit_full (G0 : generator X) k : gen_fetched G0 = 0%nat -> (m <= B)%nat ->
    exists G A Gn An, set_batch_size G0 B (Some m) = Ok G /\
      convert_to_accumulate O s0 (gen_freq G) = Ok A /\
      fit O sum d nb sg G A (k * gen_freq G) = Ok (Gn, An) /\
      inner An = full_batch_training O d (if sum then INR (gen_freq G) else 1) nb sg s0 k.
  Proof.
    intros H0 HmB. pose proof q_pos as Hq.
    destruct (new_generator_ok G0 B (Some m) HB) as (G & EG & G1 & G2 & G3 & G4 & G5 & G6). { intros H. injection H as ->. lia. }
    assert (Em : gen_mini G = m) by lia.
    assert (Ef : gen_freq G = q).
    { rewrite G4, Em, ceil_div_spec by auto. rewrite Hdiv. reflexivity. }
    rewrite Em in *.
    assert (EA : exists A, convert_to_accumulate O s0 q = Ok A).
    { unfold convert_to_accumulate. destruct (Nat.ltb_spec q 1); [lia|]. eauto. }
    destruct EA as [A EA].
    assert (HG : gen_at 0 (weights O s0) G).
    { split; [auto|]. split; [auto|]. rewrite Nat.mod_0_l, Nat.div_0_l by lia. cbn [Nat.eqb]. split; [lia|congruence]. }
    destruct (fit_train G A (k * q) HG EA) as (Gn & An & EF & ET & _).
    exists G, A, Gn, An. rewrite Ef. split; [auto|]. split; [auto|]. split; [auto|].
    destruct (train_window O d q sum 0 (fun v => v) Gr s0 Hq Gr_sized k 0 Hq) as (A' & EA' & B' & EB' & _ & _ & EI & _).
    rewrite EA in EA'. injection EA' as <-. rewrite Nat.add_0_r, ET in EB'. injection EB' as <-.
    rewrite EI. apply window_full.
  Qed.
End Fit.

(** * Averaged weights *)
Lemma geometric decay k : Rsum (fun j => (1 - decay) * decay ^ (k - j)) (seq 1 k) = 1 - decay ^ k.
Proof.
  induction k as [|k IH]; [cbn; rewrite ?Rsum_nil; lra|].
  rewrite seq_S, Rsum_app, Rsum_cons, Rsum_nil. replace (1 + k)%nat with (S k) by lia. rewrite Nat.sub_diag. cbn [pow].
  rewrite (Rsum_ext _ (fun j => decay * ((1 - decay) * decay ^ (k - j)))).
  - rewrite Rsum_scal, IH. ring.
  - intros j Hj. apply in_seq in Hj. replace (S k - j)%nat with (S (k - j)) by lia. cbn [pow]. ring.
Qed.

Lemma pow_lt_1 decay k : 0 < decay < 1 -> (0 < k)%nat -> decay ^ k < 1.
Proof. intros H Hk. apply pow_lt_1_compat; auto. lra. Qed.

Lemma ema_convex {S} (O : optimizer S) d f sum decay ar gradient s0 k r :
  (0 < f)%nat -> sized O d gradient -> 0 < decay < 1 -> (0 < k)%nat -> (r < f)%nat ->
  let W j := weights O (window_updates O d f (step_scale sum f) ar gradient s0 j) in
  let c j := (1 - decay) * decay ^ (k - j) / (1 - decay ^ k) in
  (exists A B, convert_to_accumulate O s0 f = Ok A /\ train O sum decay ar gradient A (k * f + r) = Ok B /\
     length (weights_from_ema decay B) = d /\
     forall i, nth i (weights_from_ema decay B) 0 = Rsum (fun j => c j * nth i (W j) 0) (seq 1 k)) /\
  (forall j, In j (seq 1 k) -> 0 <= c j) /\ Rsum c (seq 1 k) = 1.
Proof.
  intros Hf Hd Hdec Hk Hr W c. pose proof (pow_lt_1 decay k Hdec Hk) as P.
  split; [|split].
  - destruct (train_window O d f sum decay ar gradient s0 Hf Hd k r Hr) as (A & EA & B & EB & _ & _ & _ & _ & HE).
    destruct (HE ltac:(lra)) as [T [L E]]. exists A, B. split; [auto|]. split; [auto|].
    split; [unfold weights_from_ema; now rewrite map_length|].
    intros i. unfold weights_from_ema. rewrite T.
    transitivity (/ (1 - decay ^ k) * nth i (params_ema B) 0).
    { rewrite (map_ext _ (Rmult (/ (1 - decay ^ k)))) by (intros; unfold Rdiv; apply Rmult_comm). apply nth_vscale. }
    rewrite E, <- Rsum_scal. apply Rsum_ext. intros j _. unfold c, W. field. lra.
  - intros j _. unfold c. apply Rmult_le_pos; [|apply Rlt_le, Rinv_0_lt_compat; lra].
    apply Rmult_le_pos; [lra|]. apply pow_le. lra.
  - unfold c. rewrite (Rsum_ext _ (fun j => / (1 - decay ^ k) * ((1 - decay) * decay ^ (k - j)))).
    + rewrite Rsum_scal, geometric. field. lra.
    + intros; field; lra.
Qed.

(** * Number of samples *)
Local Close Scope R_scope.

Lemma concat_length_const {X} (l : list (list X)) m : (forall x, In x l -> length x = m) -> length (concat l) = length l * m.
Proof.
  induction l as [|a l IH]; intros H; cbn [concat length]; [reflexivity|]. rewrite app_length, IH.
  - rewrite (H a) by now left. reflexivity.
  - intros; apply H; now right.
Qed.

Lemma fast_next_count {X} (sampling : nat -> nat -> list X) B mini k : 0 < B -> mini <> Some 0 ->
  (forall i m, length (sampling i m) = m) ->
  let m := snd (sampler_sizes B mini) in
  exists k' out, fast_next sampling B m k = Ok (k', out) /\ k < k' /\
    length out = B / m * m /\ length out <= B /\
    (length out = B <-> B mod m = 0) /\ (length out < B <-> B mod m <> 0).
Proof.
  intros HB Hmini Hs m.
  assert (Hm : 0 < m <= B).
  { unfold m, sampler_sizes. cbn [snd]. destruct mini as [[|x]|]; [congruence| |].
    - destruct (Nat.ltb_spec B (S x)); lia.
    - rewrite Nat.ltb_irrefl. lia. }
  clearbody m. pose proof (Nat.div_mod B m ltac:(lia)) as D. pose proof (Nat.mod_upper_bound B m ltac:(lia)) as M.
  unfold fast_next. destruct (Nat.ltb_spec m B) as [L|L].
  - destruct (Nat.eqb_spec m 0); [lia|]. eexists _, _. split; [reflexivity|].
    assert (Q : 0 < B / m) by (apply Nat.div_str_pos; lia).
    assert (E : length (concat (map (fun i => sampling (k + i) m) (range (B / m)))) = B / m * m).
    { rewrite (concat_length_const _ m). { now rewrite map_length, range_length. }
      intros x Hx. apply in_map_iff in Hx. destruct Hx as (i & <- & _). apply Hs. }
    rewrite E. split; [lia|]. split; [lia|]. split; [lia|]. split; lia.
  - assert (m = B) by lia. subst m. eexists _, _. split; [reflexivity|]. rewrite Hs.
    rewrite Nat.div_same, Nat.mod_same by lia. repeat split; lia.
Qed.

Lemma ensemble_runs {S X} (members : list (member S X)) : forall s s' out,
  ensemble_next members s = Ok (s', out) <-> exists outs, runs members s outs s' /\ out = concat outs.
Proof.
  induction members as [|m t IH]; intros s s' out; cbn [ensemble_next].
  - split.
    + intros H. injection H as <- <-. exists []. split; constructor.
    + intros (outs & H & ->). inversion H. subst. reflexivity.
  - split.
    + destruct (member_next m s) as [[s1 o]|] eqn:E; cbn [bind fst snd]; [|discriminate].
      destruct (ensemble_next t s1) as [[s2 os]|] eqn:E2; cbn [bind fst snd]; [|discriminate].
      intros H. injection H as <- <-. apply IH in E2. destruct E2 as (outs & R & ->).
      exists (o :: outs). split; [econstructor; eauto|reflexivity].
    + intros (outs & H & ->). inversion H as [|? ? ? ? ? ? ? Hm Hr]; subst. rewrite Hm. cbn [bind fst snd].
      destruct (ensemble_next t s1) as [[s2 os]|] eqn:E2; cbn [bind fst snd].
      * assert (Q : ensemble_next t s1 = Ok (s', concat outs0)) by (apply IH; eauto).
        rewrite E2 in Q. injection Q as -> ->. reflexivity.
      * assert (Q : ensemble_next t s1 = Ok (s', concat outs0)) by (apply IH; eauto). congruence.
Qed.

Lemma ensemble_outputs {S X} (members : list (member S X)) : forall s,
  (forall m, In m members -> forall t, exists t' out, member_next m t = Ok (t', out) /\ length out = member_batch m) ->
  exists s' outs, ensemble_next members s = Ok (s', concat outs) /\
    Forall2 (fun m out => length out = member_batch m) members outs.
Proof.
  induction members as [|m t IH]; intros s H; cbn [ensemble_next].
  - exists s, []. split; [reflexivity|constructor].
  - destruct (H m (or_introl eq_refl) s) as (s1 & out & E & L). rewrite E. cbn [bind fst snd].
    destruct (IH s1 (fun x Hx => H x (or_intror Hx))) as (s2 & outs & E2 & F). rewrite E2. cbn [bind fst snd].
    exists s2, (out :: outs). split; [reflexivity|]. constructor; eauto.
Qed.

Lemma ensemble_count {S X} (members : list (member S X)) b s : ensemble_batch members = Ok b ->
  (forall m, In m members -> forall t, exists t' out, member_next m t = Ok (t', out) /\ length out = member_batch m) ->
  exists s' out, ensemble_next members s = Ok (s', out) /\ length out = b.
Proof.
  intros Hb H. destruct (ensemble_outputs members s H) as (s' & outs & E & F). exists s', (concat outs). split; [exact E|].
  destruct members as [|m0 rest]; [discriminate|]. unfold ensemble_batch in Hb.
  destruct (forallb _ _) eqn:A; [|discriminate]. injection Hb as <-. rewrite forallb_forall in A.
  assert (Le : length outs = length (m0 :: rest)) by (clear - F; induction F; cbn [length]; congruence).
  rewrite (concat_length_const _ (member_batch m0)); [now rewrite Le|].
  clear E H. revert A F. generalize (m0 :: rest). intros l. revert outs Le. intros outs _. intros A F.
  induction F as [|x o l outs L F IH]; intros y [].
  - subst y. rewrite L. apply Nat.eqb_eq, A. now left.
  - apply IH; auto. intros z Hz. apply A. now right.
Qed.

Lemma ensemble_unequal {S X} (m1 m2 : member S X) pre post : member_batch m1 <> member_batch m2 ->
  ensemble_batch (m1 :: pre ++ m2 :: post) = Err AssertionError.
Proof.
  intros H. unfold ensemble_batch.
  match goal with |- (if ?b then _ else _) = _ => assert (b = false) as -> end; [|reflexivity].
  cbn [forallb]. rewrite forallb_app. cbn [forallb].
  destruct (Nat.eqb_spec (member_batch m2) (member_batch m1)); [congruence|]. cbn. now rewrite !andb_false_r.
Qed.
