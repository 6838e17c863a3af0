(** The machines on dual numbers follow the machines along a curve of weights. *)
From Coq Require Import List ZArith Arith Bool Reals Lra Lia.
From Verif Require Import Base Cplx OrderingModel OrderingSpec TensorModel AutoregressiveModel MachinesModel MachinesSpec ComplexModel GradientModel GradientSpec ExactSpec ExactGradientProofs LayerRelationProofs.
Import ListNotations.
Local Open Scope nat_scope.

Section Tangent.
  Context {T : Type} (N : numbers T) (deriv : (R -> T) -> T -> Prop) (t0 : R).
  Context (d_ext : forall f g d, (forall t, f t = g t) -> deriv f d -> deriv g d).
  Context (d_const : forall c, deriv (fun _ => c) (zero N)).
  Context (d_plus : forall f g a b, deriv f a -> deriv g b -> deriv (fun t => plus N (f t) (g t)) (plus N a b)).
  Context (d_times : forall f g a b, deriv f a -> deriv g b -> deriv (fun t => times N (f t) (g t)) (plus N (times N (f t0) b) (times N a (g t0)))).
  Let D := dual_numbers N.

  Definition tangent (f : R -> T) (p : dual T) : Prop := f t0 = value p /\ (smooth p = true -> deriv f (slope p)).
  Definition vec_rel := LayerRelationProofs.vec_rel N D tangent.
  Definition krel := LayerRelationProofs.krel N D tangent.
  Definition wrel := LayerRelationProofs.wrel tangent.
  Definition lawful_act := LayerRelationProofs.lawful_act N D tangent.
  Definition act_rel := LayerRelationProofs.act_rel N D tangent.

  Lemma tangent_ext f g p : (forall t, f t = g t) -> tangent f p -> tangent g p.
  Proof. intros E [H1 H2]. split; [now rewrite <- E|]. intros Hs. apply (d_ext f); auto. Qed.

  Lemma tangent_const c : tangent (fun _ => c) (constant N c).
  Proof. split; [reflexivity|]. intros _. apply d_const. Qed.

  Lemma tangent_plus f g a b : tangent f a -> tangent g b -> tangent (fun t => plus N (f t) (g t)) (plus D a b).
  Proof.
    intros [A1 A2] [B1 B2]. split; [cbn; now rewrite A1, B1|]. cbn [D dual_numbers plus smooth slope]. intros Hs.
    apply andb_true_iff in Hs as [S1 S2]. apply d_plus; auto.
  Qed.

  Lemma tangent_times f g a b : tangent f a -> tangent g b -> tangent (fun t => times N (f t) (g t)) (times D a b).
  Proof.
    intros [A1 A2] [B1 B2]. split; [cbn; now rewrite A1, B1|]. cbn [D dual_numbers times smooth slope]. intros Hs.
    apply andb_true_iff in Hs as [S1 S2]. rewrite <- A1, <- B1. apply d_times; auto.
  Qed.

  Lemma features_1d_rel p W dW act dact skips convs filters X Y : (forall i, wrel (fun t => W t i) (dW i)) -> act_rel act dact -> krel X Y ->
    res_rel krel (fun t => conv_net_1d_features N p (W t) act skips convs filters (X t)) (conv_net_1d_features D p dW dact skips convs filters Y).
  Proof. apply (LayerRelationProofs.features_1d_rel N D tangent tangent_ext (tangent_const (zero N)) tangent_plus tangent_times). Qed.

  Lemma features_2d_rel p W dW wl dwl act dact X Y : (forall i j, wrel (fun t => W t i j) (dW i j)) -> wrel wl dwl -> lawful_act act dact -> krel X Y ->
    res_rel krel (fun t => conv_net_2d_features N p (W t) (wl t) act (X t)) (conv_net_2d_features D p dW dwl dact Y).
  Proof. apply (LayerRelationProofs.features_2d_rel N D tangent tangent_ext (tangent_const (zero N)) tangent_plus tangent_times). Qed.

  Lemma input_rel of_Z shape s : krel (fun _ => expand_and_cast of_Z (input_array shape s)) (constant_input N of_Z shape s).
  Proof. apply (LayerRelationProofs.input_rel N D tangent (tangent_const (zero N))). intros z. apply tangent_const. Qed.
End Tangent.

(** * The two kinds of numbers *)
Lemma mult_limit f g x a b : derivable_pt_lim f x a -> derivable_pt_lim g x b -> derivable_pt_lim (fun t => f t * g t)%R x (f x * b + a * g x)%R.
Proof.
  intros A B. apply (limit_value _ _ (a * g x + f x * b)%R); [ring|]. exact (derivable_pt_lim_mult f g x a b A B).
Qed.
Lemma plus_limit f g x a b : derivable_pt_lim f x a -> derivable_pt_lim g x b -> derivable_pt_lim (fun t => f t + g t)%R x (a + b)%R.
Proof. exact (derivable_pt_lim_plus f g x a b). Qed.
Lemma const_limit (c x : R) : derivable_pt_lim (fun _ => c) x 0%R.
Proof. apply derivable_pt_lim_const. Qed.

Lemma Cderive_mult f g x a b : Cderive f x a -> Cderive g x b -> Cderive (fun t => (f t * g t)%C) x (f x * b + a * g x)%C.
Proof.
  intros [A1 A2] [B1 B2]. split.
  - apply (limit_ext (fun t => Rminus (Re (f t) * Re (g t)) (Im (f t) * Im (g t)))); [reflexivity|].
    apply (limit_value _ _ (Rminus (Re (f x) * Re b + Re a * Re (g x)) (Im (f x) * Im b + Im a * Im (g x)))); [unfold Cplus, Cmult, Re, Im; cbn [fst snd]; ring|].
    apply derivable_pt_lim_minus; now apply mult_limit.
  - apply (limit_ext (fun t => Rplus (Re (f t) * Im (g t)) (Im (f t) * Re (g t)))); [reflexivity|].
    apply (limit_value _ _ (Rplus (Re (f x) * Im b + Re a * Im (g x)) (Im (f x) * Re b + Im a * Re (g x)))); [unfold Cplus, Cmult, Re, Im; cbn [fst snd]; ring|].
    apply plus_limit; now apply mult_limit.
Qed.

(** * Activation functions *)
Lemma limit_local (f g : R -> R) x d e : (0 < e)%R -> (forall t, Rabs (t - x) < e -> f t = g t)%R -> derivable_pt_lim f x d -> derivable_pt_lim g x d.
Proof.
  intros He E H eps Heps. destruct (H eps Heps) as [delta Hd].
  assert (P : (0 < Rmin delta e)%R) by (apply Rmin_pos; [apply cond_pos|exact He]).
  exists (mkposreal _ P). cbn [pos]. intros h H0 Hh.
  rewrite <- !E.
  - apply Hd; [exact H0|]. apply Rlt_le_trans with (1 := Hh). apply Rmin_l.
  - rewrite Rminus_eq_0, Rabs_R0. exact He.
  - replace (x + h - x)%R with h by ring. apply Rlt_le_trans with (1 := Hh). apply Rmin_r.
Qed.

Lemma limit_near (f : R -> R) x d a : derivable_pt_lim f x d -> (0 < a)%R -> exists e, (0 < e)%R /\ forall t, (Rabs (t - x) < e -> Rabs (f t - f x) < a)%R.
Proof.
  intros H Ha. assert (Cf : continuity_pt f x) by (apply derivable_continuous_pt; exists d; exact H).
  destruct (Cf a Ha) as (e & He & K). exists e. split; [exact He|]. intros t Ht. destruct (Req_dec x t) as [->|Hne].
  - rewrite Rminus_eq_0, Rabs_R0. exact Ha.
  - apply K. split; [|exact Ht]. split; [exact Logic.I|exact Hne].
Qed.

Lemma relu_limit (f : R -> R) x d : derivable_pt_lim f x d -> (f x = 0 -> d = 0)%R ->
  derivable_pt_lim (fun t => Rmax 0 (f t)) x (if Rlt_dec 0 (f x) then d else 0%R).
Proof.
  intros H H0. destruct (Rlt_dec 0 (f x)) as [P|P].
  - destruct (limit_near f x d (f x) H P) as (e & He & K). apply (limit_local f _ x d e He); [|exact H].
    intros t Ht. apply K in Ht. apply Rabs_def2 in Ht. rewrite Rmax_right; lra.
  - destruct (Req_dec (f x) 0) as [E|E].
    + specialize (H0 E). subst d. intros eps Heps. destruct (H eps Heps) as [delta Hd]. exists delta. intros h Hn Hh. specialize (Hd h Hn Hh).
      rewrite E in *. rewrite (Rmax_left 0 0) by lra. rewrite !Rminus_0_r in *.
      apply Rle_lt_trans with (2 := Hd). unfold Rdiv. rewrite !Rabs_mult. apply Rmult_le_compat_r; [apply Rabs_pos|].
      unfold Rmax. destruct (Rle_dec 0 (f (x + h)%R)); [apply Rle_refl|]. rewrite Rabs_R0. apply Rabs_pos.
    + assert (P' : (0 < - f x)%R) by lra. destruct (limit_near f x d (- f x)%R H P') as (e & He & K).
      apply (limit_local (fun _ => 0%R) _ x 0 e He); [|apply const_limit].
      intros t Ht. apply K in Ht. apply Rabs_def2 in Ht. rewrite Rmax_left; lra.
Qed.

Definition real_deriv (x : R) : (R -> R) -> R -> Prop := fun f d => derivable_pt_lim f x d.
Definition complex_deriv (x : R) : (R -> C) -> C -> Prop := fun f d => Cderive f x d.

Lemma map_lawful {T} (N : numbers T) deriv x (g : T -> T) (dg : dual T -> dual T) : g (zero N) = zero N -> dg (zero (dual_numbers N)) = zero (dual_numbers N) ->
  (forall f a, tangent deriv x f a -> tangent deriv x (fun t => g (f t)) (dg a)) ->
  (forall (f h : R -> T) d, (forall t, f t = h t) -> deriv f d -> deriv h d) ->
  lawful_act N deriv x (map g) (map dg).
Proof.
  intros G0 D0 K E f v [H1 H2]. split; [intros t; now rewrite !map_length|]. intros i. rewrite <- D0 at 1. rewrite map_nth.
  apply (tangent_ext deriv x E (fun t => g (nth i (f t) (zero N)))); [|apply (K (fun t => nth i (f t) (zero N))), H2].
  intros t. rewrite <- G0 at 2. now rewrite map_nth.
Qed.

Lemma relu_tangent x f a : tangent (real_deriv x) x f a -> tangent (real_deriv x) x (fun t => Rmax 0 (f t)) (relu_dual a).
Proof.
  intros [H1 H2]. split; [cbn; now rewrite H1|]. cbn [relu_dual smooth slope]. intros Hs. apply andb_true_iff in Hs as [S1 S2]. rewrite <- H1 in *.
  apply relu_limit; [apply H2; exact S1|]. intros E. destruct (Req_EM_T (f x) 0); [|contradiction]. destruct (Req_EM_T (slope a) 0); [assumption|discriminate].
Qed.

Lemma relu_lawful x : lawful_act real_numbers (real_deriv x) x relu_row relu_dual_row.
Proof.
  apply map_lawful.
  - apply Rmax_left. apply Rle_refl.
  - unfold relu_dual. cbn [dual_numbers zero constant value slope smooth real_numbers]. unfold constant. cbn [zero real_numbers].
    rewrite Rmax_left by apply Rle_refl. destruct (Rlt_dec 0 0) as [K|_]; [exfalso; lra|]. destruct (Req_EM_T 0 0) as [_|K]; [reflexivity|contradiction].
  - apply relu_tangent.
  - intros f h d E. now apply limit_ext.
Qed.

Lemma crelu_lawful x : lawful_act complex_numbers (complex_deriv x) x crelu_row crelu_dual_row.
Proof.
  apply map_lawful.
  - unfold crelu, relu. cbn. rewrite Rmax_left by apply Rle_refl. reflexivity.
  - unfold crelu_dual, relu_dual. cbn [dual_numbers zero constant value slope smooth complex_numbers]. unfold constant. cbn [zero complex_numbers].
    unfold C0, Re, Im. cbn [fst snd].
    rewrite Rmax_left by apply Rle_refl. destruct (Rlt_dec 0 0) as [K|_]; [exfalso; lra|]. destruct (Req_EM_T 0 0) as [_|K]; [reflexivity|contradiction].
  - intros f a [H1 H2].
    assert (A : tangent (real_deriv x) x (fun t => Re (f t)) {| value := Re (value a); slope := Re (slope a); smooth := smooth a |}).
    { split; [cbn; now rewrite H1|]. cbn [smooth slope]. intros Hs. apply (H2 Hs). }
    assert (B : tangent (real_deriv x) x (fun t => Im (f t)) {| value := Im (value a); slope := Im (slope a); smooth := smooth a |}).
    { split; [cbn; now rewrite H1|]. cbn [smooth slope]. intros Hs. apply (H2 Hs). }
    apply relu_tangent in A as [A1 A2], B as [B1 B2].
    assert (Rc : forall a, relu a = Rmax 0 a) by (intros; unfold relu; apply Rmax_comm).
    split.
    + unfold crelu. rewrite !Rc. apply C_eq; [exact A1|exact B1].
    + cbn [crelu_dual smooth slope]. intros Hs. apply andb_true_iff in Hs as [S1 S2].
      split; [apply (limit_ext (fun t => Rmax 0 (Re (f t)))); [intros; symmetry; apply Rc|now apply A2]|
              apply (limit_ext (fun t => Rmax 0 (Im (f t)))); [intros; symmetry; apply Rc|now apply B2]].
  - intros f h d E. now apply Cderive_ext.
Qed.

(** The logarithm of the hyperbolic cosine. *)
Lemma comp_limit g f x df dg : derivable_pt_lim f x df -> derivable_pt_lim g (f x) dg -> derivable_pt_lim (fun t => g (f t)) x (dg * df)%R.
Proof. exact (derivable_pt_lim_comp f g x df dg). Qed.

Lemma atan2_upper y a : (0 < y)%R -> atan2 y a = (PI / 2 - atan (a / y))%R.
Proof.
  intros Hy. unfold atan2. destruct (Rlt_dec 0 a) as [P|P].
  - replace (y / a)%R with (/ (a / y))%R by (field; lra). apply atan_inv. apply Rdiv_lt_0_compat; lra.
  - destruct (Rlt_dec a 0) as [Q|Q].
    + destruct (Rle_dec 0 y); [|lra]. replace (y / a)%R with (- / (- a / y))%R by (field; lra). rewrite atan_opp, atan_inv by (apply Rdiv_lt_0_compat; lra).
      replace (- a / y)%R with (- (a / y))%R by (field; lra). rewrite atan_opp. lra.
    + assert (a = 0)%R by lra. subst a. destruct (Rlt_dec 0 y); [|lra]. replace (0 / y)%R with 0%R by (field; lra). rewrite atan_0. lra.
Qed.

Lemma atan2_lower y a : (y < 0)%R -> atan2 y a = (- (PI / 2) - atan (a / y))%R.
Proof.
  intros Hy. unfold atan2. destruct (Rlt_dec 0 a) as [P|P].
  - replace (y / a)%R with (- / (a / - y))%R by (field; lra). rewrite atan_opp, atan_inv by (apply Rdiv_lt_0_compat; lra).
    replace (a / - y)%R with (- (a / y))%R by (field; lra). rewrite atan_opp. lra.
  - destruct (Rlt_dec a 0) as [Q|Q].
    + destruct (Rle_dec 0 y); [lra|]. replace (y / a)%R with (/ (- a / - y))%R by (field; lra). rewrite atan_inv by (apply Rdiv_lt_0_compat; lra).
      replace (- a / - y)%R with (a / y)%R by (field; lra). lra.
    + assert (a = 0)%R by lra. subst a. destruct (Rlt_dec 0 y); [lra|]. destruct (Rlt_dec y 0); [|lra]. replace (0 / y)%R with 0%R by (field; lra). rewrite atan_0. lra.
Qed.

Lemma limit_positive f x d : derivable_pt_lim f x d -> (0 < f x)%R -> exists e, (0 < e)%R /\ forall t, (Rabs (t - x) < e -> 0 < f t)%R.
Proof.
  intros H P. destruct (limit_near f x d (f x) H P) as (e & He & K). exists e. split; [exact He|]. intros t Ht. apply K in Ht. apply Rabs_def2 in Ht. lra.
Qed.

Lemma atan_ratio_limit p q x dp dq : derivable_pt_lim p x dp -> derivable_pt_lim q x dq -> q x <> 0%R ->
  derivable_pt_lim (fun t => atan (p t / q t)) x ((dp * q x - p x * dq) / (q x * q x + p x * p x))%R.
Proof.
  intros Hp Hq H0. assert (K : (0 < q x * q x + p x * p x)%R) by nra.
  apply (limit_value _ _ (/ (1 + (p x / q x) ^ 2) * ((dp * q x - dq * p x) / Rsqr (q x)))%R).
  - unfold Rsqr. field. repeat split; try lra; try exact H0; try nra.
  - apply (comp_limit atan (fun t => p t / q t)%R); [|apply derivable_pt_lim_atan]. exact (derivable_pt_lim_div p q x dp dq Hp Hq H0).
Qed.

Lemma angle_limit (f : R -> C) x d : Cderive f x d -> (0 < Re (f x))%R \/ Im (f x) <> 0%R ->
  derivable_pt_lim (fun t => angle (f t)) x ((Re (f x) * Im d - Im (f x) * Re d) / Cnorm2 (f x))%R.
Proof.
  intros [D1 D2] H. unfold angle. destruct (Rlt_dec 0 (Re (f x))) as [P|P].
  - destruct (limit_positive _ x _ D1 P) as (e & He & K). apply (limit_local (fun t => atan (Im (f t) / Re (f t))) _ x _ e He).
    + intros t Ht. unfold atan2. destruct (Rlt_dec 0 (Re (f t))) as [_|Q]; [reflexivity|]. exfalso. apply Q. now apply K.
    + apply (limit_value _ _ ((Im d * Re (f x) - Im (f x) * Re d) / (Re (f x) * Re (f x) + Im (f x) * Im (f x)))%R).
      * unfold Cnorm2. f_equal. ring.
      * apply (atan_ratio_limit (fun t => Im (f t)) (fun t => Re (f t))); auto. lra.
  - destruct H as [H|H]; [contradiction|]. destruct (Rlt_dec 0 (Im (f x))) as [Q|Q].
    + destruct (limit_positive _ x _ D2 Q) as (e & He & K). apply (limit_local (fun t => (PI / 2 - atan (Re (f t) / Im (f t)))%R) _ x _ e He).
      * intros t Ht. symmetry. apply atan2_upper. now apply K.
      * apply (limit_value _ _ (0 - (Re d * Im (f x) - Re (f x) * Im d) / (Im (f x) * Im (f x) + Re (f x) * Re (f x)))%R).
        { unfold Cnorm2. unfold Re, Im in *. field. nra. }
        apply derivable_pt_lim_minus; [apply derivable_pt_lim_const|]. now apply (atan_ratio_limit (fun t => Re (f t)) (fun t => Im (f t))).
    + assert (Q' : (0 < - Im (f x))%R) by lra.
      destruct (limit_positive (fun t => - Im (f t))%R x (- Im d)%R (derivable_pt_lim_opp _ _ _ D2) Q') as (e & He & K).
      apply (limit_local (fun t => (- (PI / 2) - atan (Re (f t) / Im (f t)))%R) _ x _ e He).
      * intros t Ht. symmetry. apply atan2_lower. apply K in Ht. lra.
      * apply (limit_value _ _ (0 - (Re d * Im (f x) - Re (f x) * Im d) / (Im (f x) * Im (f x) + Re (f x) * Re (f x)))%R).
        { unfold Cnorm2. unfold Re, Im in *. field. nra. }
        apply derivable_pt_lim_minus; [apply derivable_pt_lim_const|]. now apply (atan_ratio_limit (fun t => Re (f t)) (fun t => Im (f t))).
Qed.

Lemma ln_mod_limit (f : R -> C) x d : Cderive f x d -> f x <> C0 ->
  derivable_pt_lim (fun t => ln (Cmod (f t))) x ((Re (f x) * Re d + Im (f x) * Im d) / Cnorm2 (f x))%R.
Proof.
  intros [D1 D2] H. pose proof (Cnorm2_pos _ H) as P. pose proof (sqrt_lt_R0 _ P) as Q.
  apply (limit_value _ _ (/ sqrt (Cnorm2 (f x)) * (/ (2 * sqrt (Cnorm2 (f x))) * (2 * (Re (f x) * Re d + Im (f x) * Im d))))%R).
  { rewrite <- (sqrt_sqrt (Cnorm2 (f x))) at 3 by lra. field. lra. }
  apply (comp_limit ln (fun t => sqrt (Cnorm2 (f t)))); [|apply derivable_pt_lim_ln; exact Q].
  apply (comp_limit sqrt (fun t => Cnorm2 (f t))); [|now apply derivable_pt_lim_sqrt].
  apply (limit_ext (fun t => Re (f t) * Re (f t) + Im (f t) * Im (f t))%R); [reflexivity|].
  apply (limit_value _ _ ((Re (f x) * Re d + Re d * Re (f x)) + (Im (f x) * Im d + Im d * Im (f x)))%R); [ring|].
  apply plus_limit; now apply mult_limit.
Qed.

Lemma log_derive (f : R -> C) x d : Cderive f x d -> (0 < Re (f x))%R \/ Im (f x) <> 0%R -> Cderive (fun t => complex_log (f t)) x (d / f x)%C.
Proof.
  intros D H. assert (H0 : f x <> C0). { intros E. rewrite E in H. unfold C0, Re, Im in H. cbn [fst snd] in H. destruct H; lra. }
  pose proof (Cnorm2_pos _ H0) as P. split.
  - apply (limit_ext (fun t => ln (Cmod (f t)))); [reflexivity|].
    apply (limit_value _ _ ((Re (f x) * Re d + Im (f x) * Im d) / Cnorm2 (f x))%R); [|now apply ln_mod_limit].
    unfold Cdiv, Cinv, Cmult, Re, Im. cbn [fst snd]. field. lra.
  - apply (limit_ext (fun t => angle (f t))); [reflexivity|].
    apply (limit_value _ _ ((Re (f x) * Im d - Im (f x) * Re d) / Cnorm2 (f x))%R); [|now apply angle_limit].
    unfold Cdiv, Cinv, Cmult, Re, Im. cbn [fst snd]. field. lra.
Qed.

Lemma angle_scale k z : (0 < k)%R -> angle (Cscale k z) = angle z.
Proof.
  intros Hk. destruct z as [a b]. unfold angle, Cscale, atan2, Re, Im. cbn [fst snd].
  assert (S : forall c, (0 < k * c <-> 0 < c)%R). { intros c. split; intros; [apply (Rmult_lt_reg_l k); lra|apply Rmult_lt_0_compat; lra]. }
  assert (S' : forall c, (k * c < 0 <-> c < 0)%R). { intros c. specialize (S (- c)%R). split; intros; [assert (0 < - c)%R by (apply S; lra); lra|assert (0 < k * - c)%R by (apply S; lra); lra]. }
  assert (Q : a <> 0%R -> (k * b / (k * a) = b / a)%R) by (intros; field; split; lra).
  destruct (Rlt_dec 0 (k * a)) as [A|A], (Rlt_dec 0 a) as [A'|A']; try (exfalso; now apply A', S + now apply A, S).
  - rewrite Q by lra. reflexivity.
  - destruct (Rlt_dec (k * a) 0) as [B|B], (Rlt_dec a 0) as [B'|B']; try (exfalso; now apply B', S' + now apply B, S').
    + rewrite Q by lra. destruct (Rle_dec 0 (k * b)) as [E|E], (Rle_dec 0 b) as [E'|E']; try reflexivity; exfalso.
      * apply Rnot_le_lt in E'. apply S' in E'. lra.
      * apply E. apply Rmult_le_pos; lra.
    + destruct (Rlt_dec 0 (k * b)) as [E|E], (Rlt_dec 0 b) as [E'|E']; try (exfalso; now apply E', S + now apply E, S); [reflexivity|].
      destruct (Rlt_dec (k * b) 0) as [G|G], (Rlt_dec b 0) as [G'|G']; try (exfalso; now apply G', S' + now apply G, S'); reflexivity.
Qed.

Lemma log_scale k z : (0 < k)%R -> z <> C0 -> complex_log (Cscale k z) = (complex_log z + RtoC (ln k))%C.
Proof.
  intros Hk Hz. unfold complex_log. rewrite angle_scale by exact Hk.
  assert (M : Cmod (Cscale k z) = (k * Cmod z)%R).
  { unfold Cmod. replace (Cnorm2 (Cscale k z)) with (k * k * Cnorm2 z)%R by (unfold Cnorm2, Cscale, Re, Im; cbn [fst snd]; ring).
    rewrite sqrt_mult_alt by nra. rewrite sqrt_square by lra. reflexivity. }
  rewrite M, ln_mult by (try exact Hk; apply sqrt_lt_R0, Cnorm2_pos, Hz).
  apply C_eq; unfold Cplus, RtoC, Re, Im; cbn [fst snd]; ring.
Qed.

Lemma lncosh_log z : twice_cosh z <> C0 -> lncosh z = (complex_log (twice_cosh z) - RtoC (ln 2))%C.
Proof.
  intros H. unfold lncosh. set (a := Rabs (Re z)).
  assert (E : (Cexp (z - RtoC a) + Cexp (- z - RtoC a))%C = Cscale (exp (- a)) (twice_cosh z)).
  { unfold twice_cosh. replace (z - RtoC a)%C with (RtoC (- a) + z)%C by (unfold RtoC; apply C_eq; unfold Cplus, Cminus, Copp, Re, Im; cbn [fst snd]; ring).
    replace (- z - RtoC a)%C with (RtoC (- a) + - z)%C by (unfold RtoC; apply C_eq; unfold Cplus, Cminus, Copp, Re, Im; cbn [fst snd]; ring).
    rewrite !Cexp_plus. replace (Cexp (RtoC (- a))) with (RtoC (exp (- a))).
    - rewrite Cscale_RtoC. ring.
    - unfold Cexp, RtoC, Re, Im. cbn [fst snd]. rewrite cos_0, sin_0. apply C_eq; unfold Re, Im; cbn [fst snd]; ring. }
  rewrite E, log_scale; [|apply exp_pos|exact H]. rewrite ln_exp.
  apply C_eq; unfold Cplus, Cminus, Copp, RtoC, Re, Im; cbn [fst snd]; ring.
Qed.

Lemma Cderive_opp f x d : Cderive f x d -> Cderive (fun t => (- f t)%C) x (- d)%C.
Proof.
  intros [A B]. split.
  - exact (derivable_pt_lim_opp (fun t => Re (f t)) x _ A).
  - exact (derivable_pt_lim_opp (fun t => Im (f t)) x _ B).
Qed.

Lemma Cderive_local (f g : R -> C) x d e : (0 < e)%R -> (forall t, Rabs (t - x) < e -> f t = g t)%R -> Cderive f x d -> Cderive g x d.
Proof.
  intros He E [A B]. split; [apply (limit_local (fun t => Re (f t)) _ x _ e He)|apply (limit_local (fun t => Im (f t)) _ x _ e He)]; auto; intros t Ht; now rewrite E.
Qed.

Lemma lncosh_derive (f : R -> C) x d : Cderive f x d -> (0 < Re (twice_cosh (f x)))%R \/ Im (twice_cosh (f x)) <> 0%R ->
  Cderive (fun t => lncosh (f t)) x (d * complex_tanh (f x))%C.
Proof.
  intros D H.
  assert (DU : Cderive (fun t => twice_cosh (f t)) x (Cexp (f x) * d + Cexp (- f x) * - d)%C).
  { unfold twice_cosh. apply Cderive_plus; [now apply Cderive_exp|]. apply (Cderive_exp (fun t => (- f t)%C)). now apply Cderive_opp. }
  assert (H0 : twice_cosh (f x) <> C0). { intros E. rewrite E in H. unfold C0, Re, Im in H. cbn [fst snd] in H. destruct H; lra. }
  assert (NZ : exists e, (0 < e)%R /\ forall t, (Rabs (t - x) < e)%R -> twice_cosh (f t) <> C0).
  { destruct DU as [D1 D2]. destruct (Rlt_dec 0 (Re (twice_cosh (f x)))) as [P|P].
    - destruct (limit_positive _ x _ D1 P) as (e & He & K). exists e. split; [exact He|]. intros t Ht E. apply K in Ht. rewrite E in Ht. cbn in Ht. lra.
    - destruct H as [H|H]; [contradiction|]. assert (A : (0 < Rabs (Im (twice_cosh (f x))))%R) by now apply Rabs_pos_lt.
      destruct (limit_near _ x _ _ D2 A) as (e & He & K). exists e. split; [exact He|]. intros t Ht E. apply K in Ht. rewrite E in Ht.
      replace (Im C0 - Im (twice_cosh (f x)))%R with (- Im (twice_cosh (f x)))%R in Ht by (unfold C0, Im; cbn [snd]; ring). rewrite Rabs_Ropp in Ht. lra. }
  destruct NZ as (e & He & K). apply (Cderive_local (fun t => (complex_log (twice_cosh (f t)) + - RtoC (ln 2))%C) _ x _ e He).
  { intros t Ht. rewrite lncosh_log by now apply K. apply C_eq; unfold Cplus, Cminus, Copp, RtoC, Re, Im; cbn [fst snd]; ring. }
  apply (Cderive_value _ _ ((Cexp (f x) * d + Cexp (- f x) * - d) / twice_cosh (f x) + C0)%C).
  { unfold complex_tanh, Cdiv. ring. }
  apply Cderive_plus; [|apply Cderive_const]. apply (log_derive (fun t => twice_cosh (f t))); [exact DU|exact H].
Qed.

Lemma lncosh_lawful x : lawful_act complex_numbers (complex_deriv x) x lncosh_row lncosh_dual_row.
Proof.
  assert (T0 : twice_cosh C0 = (2, 0)%R).
  { unfold twice_cosh, Cexp, C0, Copp, Cplus, Re, Im. cbn [fst snd]. rewrite Ropp_0, exp_0, cos_0, sin_0. apply C_eq; unfold Re, Im; cbn [fst snd]; ring. }
  assert (L0 : lncosh C0 = C0).
  { rewrite lncosh_log by (rewrite T0; intros E; apply (f_equal Re) in E; cbn in E; lra). rewrite T0. unfold complex_log, Cmod, Cnorm2, angle, atan2, Re, Im. cbn [fst snd].
    destruct (Rlt_dec 0 2); [|lra]. replace (2 * 2 + 0 * 0)%R with (2 * 2)%R by ring. rewrite sqrt_square by lra. unfold Rdiv. rewrite Rmult_0_l, atan_0.
    apply C_eq; unfold Cminus, Copp, Cplus, RtoC, C0, Re, Im; cbn [fst snd]; ring. }
  apply map_lawful.
  - exact L0.
  - unfold lncosh_dual. cbn [dual_numbers zero constant value slope smooth complex_numbers]. unfold constant. cbn [zero complex_numbers].
    rewrite T0, L0. unfold Re at 1. cbn [fst]. destruct (Rlt_dec 0 2); [|lra]. replace (C0 * complex_tanh C0)%C with C0 by ring. reflexivity.
  - intros f a [H1 H2]. split; [cbn; now rewrite H1|]. cbn [lncosh_dual smooth slope]. intros Hs. apply andb_true_iff in Hs as [S1 S2].
    rewrite <- H1 in *. apply lncosh_derive; [now apply H2|].
    destruct (Rlt_dec 0 (Re (twice_cosh (f x)))) as [P|_]; [now left|]. right. destruct (Req_EM_T (Im (twice_cosh (f x))) 0); [discriminate|assumption].
  - intros f h d E. now apply Cderive_ext.
Qed.

(** * From the features to the log wave function *)
Definition row_derive (x : R) (f : R -> list C) (d : list C) : Prop :=
  (forall t, length (f t) = length d) /\ forall i, Cderive (fun t => nth i (f t) C0) x (nth i d C0).

Lemma row_of_complex x f v : vec_rel complex_numbers (complex_deriv x) x f v -> forallb smooth v = true -> row_derive x f (map slope v) /\ f x = map value v.
Proof.
  intros [H1 H2] S. split; [split|].
  - intros t. now rewrite map_length.
  - intros i. specialize (H2 i) as [V Dv].
    replace (nth i (map slope v) C0) with (slope (nth i v (zero (dual_numbers complex_numbers)))); [apply Dv|].
    + destruct (Nat.lt_ge_cases i (length v)) as [L|L]; [|now rewrite nth_overflow]. rewrite forallb_forall in S. apply S. now apply nth_In.
    + change C0 with (slope (zero (dual_numbers complex_numbers))) at 1. now rewrite map_nth.
  - apply (nth_ext _ _ C0 C0); [now rewrite map_length, H1|]. intros i _.
    change C0 with (value (zero (dual_numbers complex_numbers))) at 2. rewrite map_nth. apply H2.
Qed.

Lemma nth_vector_to_complex v m i : length v = 2 * m -> nth i (vector_to_complex v) C0 = if i <? m then (nth i v 0%R, nth (m + i) v 0%R) else C0.
Proof.
  intros L. unfold vector_to_complex. rewrite L, (Nat.mul_comm 2 m), Nat.div_mul by lia.
  assert (L1 : length (firstn m v) = m) by (rewrite firstn_length; lia). assert (L2 : length (skipn m v) = m) by (rewrite skipn_length; lia).
  destruct (Nat.ltb_spec i m) as [Hi|Hi].
  - rewrite (nth_map2_in _ _ _ i 0%R 0%R) by lia. f_equal.
    + rewrite <- (firstn_skipn m v) at 2. rewrite app_nth1 by lia. reflexivity.
    + rewrite <- (firstn_skipn m v) at 2. rewrite app_nth2 by lia. f_equal. lia.
  - apply nth_overflow. rewrite map2_length. lia.
Qed.

Lemma vector_to_complex_length v m : length v = 2 * m -> length (vector_to_complex v) = m.
Proof.
  intros L. unfold vector_to_complex. rewrite map2_length, firstn_length, skipn_length, L, (Nat.mul_comm 2 m), Nat.div_mul by lia. lia.
Qed.

Lemma row_of_real x f v m : length v = 2 * m -> vec_rel real_numbers (real_deriv x) x f v -> forallb smooth v = true ->
  row_derive x (fun t => vector_to_complex (f t)) (vector_to_complex (map slope v)) /\ vector_to_complex (f x) = vector_to_complex (map value v).
Proof.
  intros L [H1 H2] S.
  assert (N : forall i, derivable_pt_lim (fun t => nth i (f t) 0%R) x (nth i (map slope v) 0%R)).
  { intros i. specialize (H2 i) as [V Dv].
    replace (nth i (map slope v) 0%R) with (slope (nth i v (zero (dual_numbers real_numbers)))); [apply Dv|].
    - destruct (Nat.lt_ge_cases i (length v)) as [Li|Li]; [|now rewrite nth_overflow]. rewrite forallb_forall in S. apply S. now apply nth_In.
    - change 0%R with (slope (zero (dual_numbers real_numbers))) at 1. now rewrite map_nth. }
  split; [split|].
  - intros t. rewrite (vector_to_complex_length (f t) m), (vector_to_complex_length (map slope v) m); rewrite ?map_length, ?H1; auto.
  - intros i. rewrite (nth_vector_to_complex (map slope v) m) by now rewrite map_length.
    apply (Cderive_ext (fun t => if i <? m then (nth i (f t) 0%R, nth (m + i) (f t) 0%R) else C0)).
    { intros t. symmetry. apply nth_vector_to_complex. now rewrite H1. }
    destruct (i <? m); [split; cbn [Re Im fst snd]; apply N|apply Cderive_const].
  - f_equal. apply (nth_ext _ _ 0%R 0%R); [now rewrite map_length, H1|]. intros i _.
    change 0%R with (value (zero (dual_numbers real_numbers))) at 2. rewrite map_nth. apply H2.
Qed.

(** Normalisation. *)
Lemma real_sum_limit {A} (f : A -> R -> R) (d : A -> R) x (l : list A) :
  (forall a, In a l -> derivable_pt_lim (f a) x (d a)) -> derivable_pt_lim (fun t => Rsum (fun a => f a t) l) x (Rsum d l).
Proof.
  induction l as [|a l IH]; intros H; [exact (const_limit 0 x)|]. apply (limit_ext (fun t => f a t + Rsum (fun a => f a t) l)%R); [reflexivity|].
  apply plus_limit; [apply H; now left|]. apply IH. intros b Hb. apply H. now right.
Qed.

Lemma Rsum_nth {A} (g : A -> R) (l : list A) d : Rsum g l = Rsum (fun i => g (nth i l d)) (range (length l)).
Proof.
  rewrite <- (Rsum_map (fun i => nth i l d) g). f_equal. symmetry. apply map_nth_range.
Qed.

Lemma nth_combine_in {A B} (u : list A) (v : list B) a b i : length u = length v -> nth i (combine u v) (a, b) = (nth i u a, nth i v b).
Proof. intros. now apply combine_nth. Qed.

Lemma normalize_nth z i : i < length z -> nth i (normalize_complex 2 z) C0 = (Re (nth i z C0) - 1 / 2 * ln (Rsum (fun a => exp (2 * Re a)) z), Im (nth i z C0))%R.
Proof.
  intros Hi. unfold normalize_complex, reduce_logsumexp. rewrite (nth_map2_in _ _ _ i 0%R 0%R) by now rewrite !map_length.
  rewrite !Rsum_map. rewrite (nth_indep (map _ (map Re z)) 0%R (0 - 1 / 2 * ln (Rsum (fun a => exp (Re a * 2)) z))%R) by now rewrite !map_length.
  rewrite (map_nth (fun v => v - 1 / 2 * ln (Rsum (fun a => exp (Re a * 2)) z))%R).
  change 0%R with (Re C0) at 1. rewrite map_nth. change 0%R with (Im C0). rewrite map_nth.
  apply (f_equal (fun a => (Re (nth i z C0) - 1 / 2 * ln a, Im (nth i z C0))%R)). apply Rsum_ext. intros a _. f_equal. ring.
Qed.

Lemma normalize_length z : length (normalize_complex 2 z) = length z.
Proof. unfold normalize_complex. rewrite map2_length, !map_length. lia. Qed.

Lemma normalize_derive x f d : row_derive x f d -> row_derive x (fun t => normalize_complex 2 (f t)) (normalize_slope (f x) d).
Proof.
  intros [L H]. split; [intros t; unfold normalize_slope; now rewrite normalize_length, map_length, L|]. intros i.
  destruct (Nat.lt_ge_cases i (length d)) as [Hi|Hi].
  2:{ rewrite (nth_overflow (normalize_slope _ _)) by (unfold normalize_slope; now rewrite map_length).
      apply (Cderive_ext (fun _ => C0)); [|apply Cderive_const]. intros t. symmetry. apply nth_overflow. now rewrite normalize_length, L. }
  apply (Cderive_ext (fun t => (Re (nth i (f t) C0) - 1 / 2 * ln (Rsum (fun a => exp (2 * Re a)) (f t)), Im (nth i (f t) C0))%R)).
  { intros t. symmetry. apply normalize_nth. now rewrite L. }
  unfold normalize_slope. set (m := (Rsum _ (combine _ _) / _)%R).
  rewrite (nth_indep (map _ d) C0 (C0 - RtoC m)%C) by now rewrite map_length. rewrite (map_nth (fun e => (e - RtoC m)%C)).
  destruct (H i) as [H1 H2]. split; cbn [Re Im fst snd].
  2:{ apply (limit_value _ _ (Im (nth i d C0))); [unfold Cminus, RtoC, Im; cbn [fst snd]; unfold Cplus, Copp; cbn [fst snd]; ring|exact H2]. }
  apply (limit_value _ _ (Re (nth i d C0) - m)%R); [unfold Cminus, RtoC, Re; cbn [fst snd]; unfold Cplus, Copp; cbn [fst snd]; ring|].
  apply derivable_pt_lim_minus; [exact H1|].
  set (S0 := Rsum (fun a => exp (2 * Re a)) (f x)).
  assert (P : (0 < S0)%R). { apply Rsum_pos; [|intros; apply exp_pos]. intros E. rewrite <- (L x), E in Hi. cbn in Hi. lia. }
  apply (limit_value _ _ (1 / 2 * (/ S0 * Rsum (fun k => exp (2 * Re (nth k (f x) C0)) * (2 * Re (nth k d C0))) (range (length d))))%R).
  { unfold m. rewrite (Rsum_nth (fun p => exp (2 * Re (fst p)) * Re (snd p))%R (combine (f x) d) (C0, C0)). rewrite combine_length, L, Nat.min_id.
    fold S0. rewrite (Rsum_ext (fun k => exp (2 * Re (nth k (f x) C0)) * (2 * Re (nth k d C0)))%R (fun k => 2 * (exp (2 * Re (nth k (f x) C0)) * Re (nth k d C0)))%R) by (intros; ring).
    rewrite Rsum_scal. rewrite (Rsum_ext (fun k => exp (2 * Re (fst (nth k (combine (f x) d) (C0, C0)))) * Re (snd (nth k (combine (f x) d) (C0, C0))))%R
      (fun k => exp (2 * Re (nth k (f x) C0)) * Re (nth k d C0))%R).
    - field. lra.
    - intros k _. rewrite nth_combine_in by apply L. reflexivity. }
  apply (derivable_pt_lim_scal (fun t => ln (Rsum (fun a => exp (2 * Re a)) (f t)))).
  apply (derivable_pt_lim_comp (fun t => Rsum (fun a => exp (2 * Re a)) (f t)) ln); [|apply derivable_pt_lim_ln; exact P].
  apply (limit_ext (fun t => Rsum (fun k => exp (2 * Re (nth k (f t) C0))) (range (length d)))).
  { intros t. rewrite (Rsum_nth (fun a => exp (2 * Re a))%R (f t) C0), L. reflexivity. }
  apply (real_sum_limit (fun k t => exp (2 * Re (nth k (f t) C0))%R)). intros k _.
  apply (derivable_pt_lim_comp (fun t => 2 * Re (nth k (f t) C0))%R exp); [|apply derivable_pt_lim_exp].
  apply (derivable_pt_lim_scal (fun t => Re (nth k (f t) C0))). apply H.
Qed.

Lemma row_combine x (h : list R) : forall f d, row_derive x f d ->
  Cderive (fun t => Csum (fun z => z) (map2 (fun c r => (c * RtoC r)%C) (f t) h)) x (Csum (fun z => z) (map2 (fun c r => (c * RtoC r)%C) d h)).
Proof.
  induction h as [|r h IH]; intros f d [L H].
  - apply (Cderive_ext (fun _ => C0)); [intros t; destruct (f t); reflexivity|]. destruct d; apply Cderive_const.
  - destruct d as [|e d].
    + apply (Cderive_ext (fun _ => C0)); [|apply Cderive_const]. intros t. specialize (L t). destruct (f t); [reflexivity|discriminate].
    + apply (Cderive_ext (fun t => (nth 0 (f t) C0 * RtoC r + Csum (fun z => z) (map2 (fun c r => (c * RtoC r)%C) (tl (f t)) h))%C)).
      { intros t. specialize (L t). destruct (f t); [discriminate|]. reflexivity. }
      cbn [map2]. rewrite Csum_cons. apply Cderive_plus.
      * apply (Cderive_ext (fun t => (RtoC r * nth 0 (f t) C0)%C)); [intros; ring|].
        apply (Cderive_value _ _ (RtoC r * e)%C); [ring|]. apply Cderive_scal. apply (H 0).
      * apply (IH (fun t => tl (f t)) d). split.
        -- intros t. specialize (L t). destruct (f t); [discriminate|]. now inversion L.
        -- intros i. apply (Cderive_ext (fun t => nth (S i) (f t) C0)); [|apply (H (S i))]. intros t. specialize (L t). destruct (f t); [discriminate|reflexivity].
Qed.

Lemma rows_combine x : forall (hs : list (list R)) (L : list nat) F d, (forall i, In i L -> row_derive x (F i) (d i)) ->
  Cderive (fun t => combine_complex (map (fun i => F i t) L) hs) x (combine_complex (map d L) hs).
Proof.
  intros hs. induction hs as [|h hs IH]; intros L F d H; unfold combine_complex in *.
  - apply (Cderive_ext (fun _ => C0)); [intros t; destruct L; reflexivity|]. destruct L; apply Cderive_const.
  - destruct L as [|i L]; [exact (Cderive_const C0 x)|]. cbn [map map2 concat].
    apply (Cderive_ext (fun t => (Csum (fun z => z) (map2 (fun c r => (c * RtoC r)%C) (F i t) h) +
      Csum (fun z => z) (concat (map2 (map2 (fun c r => (c * RtoC r)%C)) (map (fun i => F i t) L) hs)))%C)); [intros t; symmetry; apply Csum_app|].
    rewrite Csum_app. apply Cderive_plus; [apply row_combine; apply H; now left|]. apply IH. intros j Hj. apply H. now right.
Qed.

Lemma predictions_derive x (F : R -> list Z -> nat -> list C) d s : (forall i, i < length s -> row_derive x (fun t => F t s i) (d i)) ->
  Cderive (fun t => predictions (F t) s) x (predictions_slope (F x s) d s).
Proof.
  intros H. unfold predictions, predictions_slope, conditional_log_wave_function.
  apply (rows_combine x (map plus_minus_one_to_one_hot s) (range (length s)) (fun i t => normalize_complex 2 (F t s i)) (fun i => normalize_slope (F x s i) (d i))).
  intros i Hi. apply (normalize_derive x (fun t => F t s i)). apply H. unfold range in Hi. apply in_seq in Hi. lia.
Qed.

(** * Machines *)
Lemma final_derive {T} (N : numbers T) deriv x (read : list T -> list C) (M : R -> tensor Z -> res (tensor (list C))) (F : R -> res (ktensor T))
    (out : res (ktensor (dual T))) (shape : list nat) (s : list Z) :
  res_rel (krel N deriv x) F out ->
  (forall t, M t (input_array shape s) = bind (F t) (fun y => Ok {| tshape := tshape (kt y); tval := fun l => read (tval (kt y) l) |})) ->
  (forall Y l f, out = Ok Y -> vec_rel N deriv x f (tval (kt Y) l) -> forallb smooth (tval (kt Y) l) = true ->
     row_derive x (fun t => read (f t)) (read (map slope (tval (kt Y) l))) /\ read (f x) = read (map value (tval (kt Y) l))) ->
  all_smooth out shape (length s) = true ->
  Cderive (fun t => predictions (conditionals (M t) shape) s) x (log_psi_slope read out shape s).
Proof.
  intros HR HM Hread S. destruct out as [Y|e]; cbn [res_rel all_smooth log_psi_slope] in *.
  - destruct HR as (X & E & [HX _]). rewrite forallb_forall in S.
    set (G := fun (t : R) (_ : list Z) i => read (tval (kt (X t)) (location shape i))).
    apply (Cderive_ext (fun t => predictions (G t) s)).
    { intros t. unfold predictions, conditional_log_wave_function. f_equal. apply map_ext. intros i. unfold G, conditionals. rewrite HM, E. reflexivity. }
    apply (Cderive_value _ _ (predictions_slope (G x s) (fun i => read (map slope (tval (kt Y) (location shape i)))) s)).
    { unfold predictions_slope. f_equal. apply map_ext_in. intros i Hi. f_equal. unfold G.
      apply (Hread Y (location shape i) (fun t => tval (kt (X t)) (location shape i)) eq_refl); [apply HX|now apply S]. }
    apply predictions_derive. intros i Hi.
    apply (Hread Y (location shape i) (fun t => tval (kt (X t)) (location shape i)) eq_refl); [apply HX|]. apply S. unfold range. apply in_seq. lia.
  - apply (Cderive_ext (fun _ => predictions (fun _ _ => []) s)).
    { intros t. unfold predictions, conditional_log_wave_function. f_equal. apply map_ext. intros i. unfold conditionals. now rewrite HM, HR. }
    apply Cderive_const.
Qed.

Lemma conv_layer_rows {T} (N : numbers T) w f ks dil x y l : conv_layer N w f ks dil x = Ok y -> length (tval (kt y) l) = f /\ features y = f.
Proof.
  unfold conv_layer. destruct (existsb _ _); [discriminate|]. intros E. injection E as <-. split; [|reflexivity].
  cbn [kt conv_output tval conv_of bias filters activation]. rewrite map2_length, !map_length, range_length. apply Nat.min_id.
Qed.

Lemma features_1d_rows {T} (N : numbers T) p W act skips convs f x y l : conv_net_1d_features N p W act skips convs f x = Ok y -> length (tval (kt y) l) = f /\ features y = f.
Proof.
  unfold conv_net_1d_features, causal_conv_1d. destruct (conv_stack N p W act skips convs 0 1 x) as [x1|]; [|discriminate]. cbn [bind].
  destruct (conv_layer N (W convs) f [1] [1] _) as [x2|] eqn:E; [|discriminate]. cbn [bind]. intros E2. injection E2 as <-. exact (conv_layer_rows N _ _ _ _ _ _ l E).
Qed.

Lemma features_2d_rows {T} (N : numbers T) p W wl act x y l : conv_net_2d_features N p W wl act x = Ok y -> length (tval (kt y) l) = 4 /\ features y = 4.
Proof.
  unfold conv_net_2d_features. destruct (causal_conv_2d_over N p (W 0) act false x x) as [vh|]; [|discriminate]. cbn [bind].
  destruct (residual_blocks_over _ _ _ _ _ _ _ _) as [vh'|]; [|discriminate]. cbn [bind].
  destruct (causal_conv_2d_over N p (W (2 * (depth2 p - 2) + 1)) act true _ _) as [vh2|]; [|discriminate]. cbn [bind]. apply conv_layer_rows.
Qed.

Lemma simple_1d_features p W act x :
  simple_conv_net_1d p W act x = bind (conv_net_1d_features real_numbers p W act (add_skip_connections p) (depth p - 2) 4 (expand_and_cast IZR x))
    (fun y => Ok {| tshape := tshape (kt y); tval := fun l => vector_to_complex (tval (kt y) l) |}).
Proof.
  unfold simple_conv_net_1d, conv_net_1d. set (x0 := expand_and_cast IZR x).
  pose proof (features_1d_rows real_numbers p W act (add_skip_connections p) (depth p - 2) 4 x0) as F. revert F. unfold conv_net_1d_features.
  destruct (conv_stack _ _ _ _ _ _ _ _ _) as [x1|]; [|reflexivity]. cbn [bind].
  destruct (causal_conv_1d _ _ _ _ _ _ _ _) as [y|]; [|reflexivity]. cbn [bind]. intros F. unfold vector_to_complex_layer.
  destruct (F y [] eq_refl) as [_ ->]. reflexivity.
Qed.

Lemma complex_1d_features p W act x :
  complex_conv_net_1d p W act x = bind (conv_net_1d_features complex_numbers p W act false (depth p - 1) 2 (expand_and_cast (fun z => RtoC (IZR z)) x))
    (fun y => Ok {| tshape := tshape (kt y); tval := fun l => tval (kt y) l |}).
Proof.
  unfold complex_conv_net_1d, conv_net_1d_features. destruct (conv_stack _ _ _ _ _ _ _ _ _) as [x1|]; [|reflexivity]. cbn [bind].
  destruct (causal_conv_1d _ _ _ _ _ _ _ _) as [[[sh v] f]|]; reflexivity.
Qed.

Lemma residual_block_real p W act : residual_block p W act = residual_block_over real_numbers p W act.
Proof. reflexivity. Qed.
Lemma residual_blocks_real p W act n : forall i v h, residual_blocks p W act n i v h = residual_blocks_over real_numbers p W act n i v h.
Proof.
  induction n as [|n IH]; intros i v h; [reflexivity|]. cbn [residual_blocks residual_blocks_over]. rewrite residual_block_real.
  destruct (residual_block_over _ _ _ _ _ _) as [vh|]; [|reflexivity]. cbn [bind]. apply IH.
Qed.

Lemma conv_2d_features p W wl act x :
  conv_net_2d p W wl act x = bind (conv_net_2d_features real_numbers p W wl act (expand_and_cast IZR x))
    (fun y => Ok {| tshape := tshape (kt y); tval := fun l => vector_to_complex (tval (kt y) l) |}).
Proof.
  unfold conv_net_2d. cbv zeta. set (x0 := expand_and_cast IZR x).
  pose proof (features_2d_rows real_numbers p W wl act x0) as F. revert F. unfold conv_net_2d_features.
  change (causal_conv_2d p (W 0) act false x0 x0) with (causal_conv_2d_over real_numbers p (W 0) act false x0 x0).
  destruct (causal_conv_2d_over real_numbers p (W 0) act false x0 x0) as [vh|]; [|reflexivity]. cbn [bind]. rewrite residual_blocks_real.
  destruct (residual_blocks_over _ _ _ _ _ _ _ _) as [vh'|]; [|reflexivity]. cbn [bind].
  change (causal_conv_2d p (W (2 * (depth2 p - 2) + 1)) act true (fst vh') (snd vh')) with (causal_conv_2d_over real_numbers p (W (2 * (depth2 p - 2) + 1)) act true (fst vh') (snd vh')).
  destruct (causal_conv_2d_over real_numbers p (W (2 * (depth2 p - 2) + 1)) act true _ _) as [vh2|]; [|reflexivity]. cbn [bind].
  destruct (conv_layer _ wl _ _ _ _) as [y|]; [|reflexivity]. cbn [bind]. intros F. unfold vector_to_complex_layer.
  destruct (F y [] eq_refl) as [_ ->]. reflexivity.
Qed.

Lemma real_d_ext x f g d : (forall t, f t = g t) -> real_deriv x f d -> real_deriv x g d.
Proof. apply limit_ext. Qed.
Lemma real_d_const x c : real_deriv x (fun _ => c) (zero real_numbers).
Proof. apply const_limit. Qed.
Lemma real_d_plus x f g a b : real_deriv x f a -> real_deriv x g b -> real_deriv x (fun t => plus real_numbers (f t) (g t)) (plus real_numbers a b).
Proof. apply plus_limit. Qed.
Lemma real_d_times x f g a b : real_deriv x f a -> real_deriv x g b ->
  real_deriv x (fun t => times real_numbers (f t) (g t)) (plus real_numbers (times real_numbers (f x) b) (times real_numbers a (g x))).
Proof. apply mult_limit. Qed.
Lemma complex_d_ext x f g d : (forall t, f t = g t) -> complex_deriv x f d -> complex_deriv x g d.
Proof. apply Cderive_ext. Qed.
Lemma complex_d_const x c : complex_deriv x (fun _ => c) (zero complex_numbers).
Proof. apply Cderive_const. Qed.
Lemma complex_d_plus x f g a b : complex_deriv x f a -> complex_deriv x g b -> complex_deriv x (fun t => plus complex_numbers (f t) (g t)) (plus complex_numbers a b).
Proof. apply Cderive_plus. Qed.
Lemma complex_d_times x f g a b : complex_deriv x f a -> complex_deriv x g b ->
  complex_deriv x (fun t => times complex_numbers (f t) (g t)) (plus complex_numbers (times complex_numbers (f x) b) (times complex_numbers a (g x))).
Proof. apply Cderive_mult. Qed.

Lemma with_slope_rel {T} (deriv : (R -> T) -> T -> Prop) x (W : R -> weights T) V :
  (forall j, deriv (fun t => kernel_at (W t) j) (kernel_at V j)) -> (forall j, deriv (fun t => bias_at (W t) j) (bias_at V j)) ->
  wrel deriv x W (weights_with_slope (W x) V).
Proof. intros A B. split; intros j; (split; [reflexivity|]); intros _; [apply A|apply B]. Qed.

Lemma real_machine_derive p (W : R -> nat -> weights R) (V : nat -> weights R) x act dact n s : real_activation act dact ->
  (forall l, weights_derive (fun t => W t l) x (V l)) ->
  let out := conv_net_1d_features (dual_numbers real_numbers) p (fun l => weights_with_slope (W x l) (V l)) dact (add_skip_connections p) (depth p - 2) 4
               (constant_input real_numbers IZR [n] s) in
  all_smooth out [n] (length s) = true ->
  Cderive (fun t => predictions (conditionals (simple_conv_net_1d p (W t) act) [n]) s) x (log_psi_slope vector_to_complex out [n] s).
Proof.
  intros HA HW out S. apply (final_derive real_numbers (real_deriv x) x vector_to_complex _
    (fun t => conv_net_1d_features real_numbers p (W t) act (add_skip_connections p) (depth p - 2) 4 (expand_and_cast IZR (input_array [n] s))) out [n] s).
  - apply (features_1d_rel real_numbers (real_deriv x) x (real_d_ext x) (real_d_const x) (real_d_plus x) (real_d_times x) p W _ act dact _ _ _
      (fun _ => expand_and_cast IZR (input_array [n] s))).
    + intros l. apply (with_slope_rel (real_deriv x) x (fun t => W t l) (V l)); apply HW.
    + destruct HA as [[-> ->]|[-> ->]]; [exact Logic.I|apply relu_lawful].
    + apply (input_rel real_numbers (real_deriv x) x (real_d_const x)).
  - intros t. apply simple_1d_features.
  - intros Y l f E. apply (row_of_real x f (tval (kt Y) l) 2). exact (proj1 (features_1d_rows _ _ _ _ _ _ _ _ _ l E)).
  - exact S.
Qed.

Lemma complex_machine_derive p (W : R -> nat -> weights C) (V : nat -> weights C) x act dact n s : complex_activation act dact ->
  (forall l, complex_weights_derive (fun t => W t l) x (V l)) ->
  let out := conv_net_1d_features (dual_numbers complex_numbers) p (fun l => weights_with_slope (W x l) (V l)) dact false (depth p - 1) 2
               (constant_input complex_numbers (fun z => RtoC (IZR z)) [n] s) in
  all_smooth out [n] (length s) = true ->
  Cderive (fun t => predictions (conditionals (complex_conv_net_1d p (W t) act) [n]) s) x (log_psi_slope (fun v => v) out [n] s).
Proof.
  intros HA HW out S. apply (final_derive complex_numbers (complex_deriv x) x (fun v => v) _
    (fun t => conv_net_1d_features complex_numbers p (W t) act false (depth p - 1) 2 (expand_and_cast (fun z => RtoC (IZR z)) (input_array [n] s))) out [n] s).
  - apply (features_1d_rel complex_numbers (complex_deriv x) x (complex_d_ext x) (complex_d_const x) (complex_d_plus x) (complex_d_times x) p W _ act dact _ _ _
      (fun _ => expand_and_cast (fun z => RtoC (IZR z)) (input_array [n] s))).
    + intros l. apply (with_slope_rel (complex_deriv x) x (fun t => W t l) (V l)); apply HW.
    + destruct HA as [[-> ->]|[[-> ->]|[-> ->]]]; [exact Logic.I|apply lncosh_lawful|apply crelu_lawful].
    + apply (input_rel complex_numbers (complex_deriv x) x (complex_d_const x)).
  - intros t. apply complex_1d_features.
  - intros Y l f E. apply row_of_complex.
  - exact S.
Qed.

Lemma machine_2d_derive p (W : R -> nat -> nat -> weights R) (V : nat -> nat -> weights R) (wl : R -> weights R) (vl : weights R) x h w s :
  (forall b j, weights_derive (fun t => W t b j) x (V b j)) -> weights_derive wl x vl ->
  let out := conv_net_2d_features (dual_numbers real_numbers) p (fun b j => weights_with_slope (W x b j) (V b j)) (weights_with_slope (wl x) vl) relu_dual_row
               (constant_input real_numbers IZR [h; w] s) in
  all_smooth out [h; w] (length s) = true ->
  Cderive (fun t => predictions (conditionals (conv_net_2d p (W t) (wl t) relu_row) [h; w]) s) x (log_psi_slope vector_to_complex out [h; w] s).
Proof.
  intros HW HL out S. apply (final_derive real_numbers (real_deriv x) x vector_to_complex _
    (fun t => conv_net_2d_features real_numbers p (W t) (wl t) relu_row (expand_and_cast IZR (input_array [h; w] s))) out [h; w] s).
  - apply (features_2d_rel real_numbers (real_deriv x) x (real_d_ext x) (real_d_const x) (real_d_plus x) (real_d_times x) p W _ wl _ relu_row relu_dual_row
      (fun _ => expand_and_cast IZR (input_array [h; w] s))).
    + intros b j. apply (with_slope_rel (real_deriv x) x (fun t => W t b j) (V b j)); apply HW.
    + apply (with_slope_rel (real_deriv x) x wl vl); apply HL.
    + apply relu_lawful.
    + apply (input_rel real_numbers (real_deriv x) x (real_d_const x)).
  - intros t. apply conv_2d_features.
  - intros Y l f E. apply (row_of_real x f (tval (kt Y) l) 2). exact (proj1 (features_2d_rows _ _ _ _ _ _ _ l E)).
  - exact S.
Qed.
