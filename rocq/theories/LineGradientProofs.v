(** The slopes of the machines are linear in the direction; hence the gradients give the derivative along every line. *)
From Coq Require Import List ZArith Arith Bool Reals Lra Lia.
From Verif Require Import ExactTrainingSpec ExactTrainingProofs.
From Verif Require Import Base Cplx Vec OrderingModel OrderingSpec TensorModel AutoregressiveModel AutoregressiveSpec MachinesModel MachinesSpec ComplexModel GradientModel
  GradientSpec ExactSpec ExactGradientProofs GradientProofs GradientLossProofs LayerRelationProofs.
Import ListNotations.
Local Open Scope nat_scope.

(** Sums over the directions with the coefficients [v]. *)
Definition Rcomb (d : nat) (v : list R) (f : nat -> R) : R := Rsum (fun i => nth i v 0 * f i)%R (seq 0 d).
Definition Ccomb (d : nat) (v : list R) (f : nat -> C) : C := Csum (fun i => RtoC (nth i v 0%R) * f i)%C (seq 0 d).

Lemma Rcomb_ext d v f g : (forall i, i < d -> f i = g i) -> Rcomb d v f = Rcomb d v g.
Proof. intros E. apply Rsum_ext. intros i Hi. apply in_seq in Hi. rewrite E by lia. reflexivity. Qed.
Lemma Rcomb_zero d v : Rcomb d v (fun _ => 0%R) = 0%R.
Proof. unfold Rcomb. rewrite (Rsum_ext _ (fun _ => 0%R)) by (intros; ring). apply Rsum_zero. Qed.
Lemma Rcomb_plus d v f g : Rcomb d v (fun i => f i + g i)%R = (Rcomb d v f + Rcomb d v g)%R.
Proof. unfold Rcomb. rewrite <- Rsum_plus. apply Rsum_ext. intros. ring. Qed.
Lemma Rcomb_left d v a f : Rcomb d v (fun i => a * f i)%R = (a * Rcomb d v f)%R.
Proof. unfold Rcomb. rewrite <- Rsum_scal. apply Rsum_ext. intros. ring. Qed.
Lemma Rcomb_right d v a f : Rcomb d v (fun i => f i * a)%R = (Rcomb d v f * a)%R.
Proof. unfold Rcomb. rewrite <- Rsum_scal_r. apply Rsum_ext. intros. ring. Qed.
Lemma Rcomb_sum {A} d v (f : A -> nat -> R) l : Rcomb d v (fun i => Rsum (fun a => f a i) l) = Rsum (fun a => Rcomb d v (f a)) l.
Proof.
  induction l as [|a l IH]; [apply Rcomb_zero|]. rewrite Rsum_cons, <- IH, <- Rcomb_plus. reflexivity.
Qed.

Lemma Ccomb_ext d v f g : (forall i, i < d -> f i = g i) -> Ccomb d v f = Ccomb d v g.
Proof. intros E. apply Csum_ext. intros i Hi. apply in_seq in Hi. rewrite E by lia. reflexivity. Qed.
Lemma Ccomb_zero d v : Ccomb d v (fun _ => C0) = C0.
Proof. unfold Ccomb. rewrite (Csum_ext _ (fun _ => C0)) by (intros; ring). apply Csum_zero. Qed.
Lemma Ccomb_plus d v f g : Ccomb d v (fun i => f i + g i)%C = (Ccomb d v f + Ccomb d v g)%C.
Proof. unfold Ccomb. rewrite <- Csum_plus. apply Csum_ext. intros. ring. Qed.
Lemma Ccomb_left d v a f : Ccomb d v (fun i => a * f i)%C = (a * Ccomb d v f)%C.
Proof. unfold Ccomb. rewrite <- Csum_scal. apply Csum_ext. intros. ring. Qed.
Lemma Ccomb_right d v a f : Ccomb d v (fun i => f i * a)%C = (Ccomb d v f * a)%C.
Proof. unfold Ccomb. rewrite <- Csum_scal_r. apply Csum_ext. intros. ring. Qed.
Lemma Ccomb_parts d v f : Ccomb d v f = (Rcomb d v (fun i => Re (f i)), Rcomb d v (fun i => Im (f i))).
Proof.
  unfold Ccomb, Rcomb. induction (seq 0 d) as [|i l IH]; [reflexivity|]. rewrite Csum_cons, !Rsum_cons, IH.
  unfold Cplus, Cmult, RtoC, Re, Im. cbn [fst snd]. f_equal; ring.
Qed.

(** * Numbers with slopes *)
Section Linear.
  Context {T : Type} (N : numbers T) (d : nat) (comb : (nat -> T) -> T).
  Context (comb_ext : forall f g, (forall i, i < d -> f i = g i) -> comb f = comb g).
  Context (comb_zero : comb (fun _ => zero N) = zero N).
  Context (comb_plus : forall f g, comb (fun i => plus N (f i) (g i)) = plus N (comb f) (comb g)).
  Context (comb_left : forall a f, comb (fun i => times N a (f i)) = times N a (comb f)).
  Context (comb_right : forall a f, comb (fun i => times N (f i) a) = times N (comb f) a).
  Let D := dual_numbers N.

  (** The same value in all directions, and a slope that is the combination of the slopes if they are derivatives. *)
  Definition linear (f : nat -> dual T) (p : dual T) : Prop :=
    (forall i, value (f i) = value p) /\ ((forall i, smooth (f i) = true) -> smooth p = true /\ slope p = comb (fun i => slope (f i))).

  Lemma linear_ext f g p : (forall i, f i = g i) -> linear f p -> linear g p.
  Proof.
    intros E [H1 H2]. split; [intros i; rewrite <- E; apply H1|]. intros Hs. destruct H2 as [A B]; [intros i; rewrite E; apply Hs|].
    split; [exact A|]. rewrite B. apply comb_ext. intros i _. now rewrite E.
  Qed.
  Lemma linear_const c : linear (fun _ => constant N c) (constant N c).
  Proof. split; [reflexivity|]. intros _. split; [reflexivity|]. cbn [constant slope]. now rewrite comb_zero. Qed.
  Lemma linear_plus f g a b : linear f a -> linear g b -> linear (fun i => plus D (f i) (g i)) (plus D a b).
  Proof.
    intros [A1 A2] [B1 B2]. split; [intros i; cbn; now rewrite A1, B1|]. cbn [D dual_numbers plus smooth slope]. intros Hs.
    destruct A2 as [A3 A4]; [intros i; destruct (proj1 (andb_true_iff _ _) (Hs i)); assumption|].
    destruct B2 as [B3 B4]; [intros i; destruct (proj1 (andb_true_iff _ _) (Hs i)); assumption|].
    split; [now rewrite A3, B3|]. now rewrite comb_plus, A4, B4.
  Qed.
  Lemma linear_times f g a b : linear f a -> linear g b -> linear (fun i => times D (f i) (g i)) (times D a b).
  Proof.
    intros [A1 A2] [B1 B2]. split; [intros i; cbn; now rewrite A1, B1|]. cbn [D dual_numbers times smooth slope]. intros Hs.
    destruct A2 as [A3 A4]; [intros i; destruct (proj1 (andb_true_iff _ _) (Hs i)); assumption|].
    destruct B2 as [B3 B4]; [intros i; destruct (proj1 (andb_true_iff _ _) (Hs i)); assumption|].
    split; [now rewrite A3, B3|]. rewrite comb_plus. f_equal.
    - rewrite B4, <- comb_left. apply comb_ext. intros i _. now rewrite A1.
    - rewrite A4, <- comb_right. apply comb_ext. intros i _. now rewrite B1.
  Qed.

  Lemma linear_features_1d p W dW act dact skips convs filters X Y : (forall i, wrel linear (fun t => W t i) (dW i)) -> act_rel D D linear act dact -> krel D D linear X Y ->
    res_rel (krel D D linear) (fun t => conv_net_1d_features D p (W t) act skips convs filters (X t)) (conv_net_1d_features D p dW dact skips convs filters Y).
  Proof. apply (LayerRelationProofs.features_1d_rel D D linear linear_ext (linear_const (zero N)) linear_plus linear_times). Qed.
  Lemma linear_features_2d p W dW wl dwl act dact X Y : (forall i j, wrel linear (fun t => W t i j) (dW i j)) -> wrel linear wl dwl -> lawful_act D D linear act dact -> krel D D linear X Y ->
    res_rel (krel D D linear) (fun t => conv_net_2d_features D p (W t) (wl t) act (X t)) (conv_net_2d_features D p dW dwl dact Y).
  Proof. apply (LayerRelationProofs.features_2d_rel D D linear linear_ext (linear_const (zero N)) linear_plus linear_times). Qed.
  Lemma linear_input of_Z shape s : krel D D linear (fun _ => constant_input N of_Z shape s) (constant_input N of_Z shape s).
  Proof. apply (LayerRelationProofs.input_rel D D linear (linear_const (zero N))). intros z. apply linear_const. Qed.

  Lemma linear_map (g : dual T -> dual T) : g (zero D) = zero D -> (forall f a, linear f a -> linear (fun i => g (f i)) (g a)) -> lawful_act D D linear (map g) (map g).
  Proof.
    intros G0 K f v [H1 H2]. split; [intros t; now rewrite !map_length|]. intros i.
    assert (M : forall l, nth i (map g l) (zero D) = g (nth i l (zero D))) by (intros l; rewrite <- G0 at 1; apply map_nth). rewrite M.
    apply (linear_ext (fun t => g (nth i (f t) (zero D)))); [|apply (K (fun t => nth i (f t) (zero D))), H2]. intros t. symmetry. apply M.
  Qed.

  Lemma linear_weights (w : weights T) (V : nat -> weights T) (v : weights T) :
    (forall j, kernel_at v j = comb (fun i => kernel_at (V i) j)) -> (forall j, bias_at v j = comb (fun i => bias_at (V i) j)) ->
    wrel linear (fun i => weights_with_slope w (V i)) (weights_with_slope w v).
  Proof. intros A B. split; intros j; (split; [reflexivity|]); intros _; (split; [reflexivity|]); [apply A|apply B]. Qed.
End Linear.

(** * Activation functions *)
Lemma relu_linear d v f a : linear (Rcomb d v) f a -> linear (Rcomb d v) (fun i => relu_dual (f i)) (relu_dual a).
Proof.
  intros [H1 H2]. split; [intros i; cbn [relu_dual value]; now rewrite H1|]. cbn [relu_dual smooth slope]. intros Hs.
  destruct H2 as [S E]; [intros i; destruct (proj1 (andb_true_iff _ _) (Hs i)); assumption|]. split.
  - rewrite S. destruct (Req_EM_T (value a) 0) as [V|V]; [|reflexivity]. destruct (Req_EM_T (slope a) 0) as [Z|Z]; [reflexivity|]. exfalso. apply Z. rewrite E.
    rewrite (Rcomb_ext d v _ (fun _ => 0%R)); [apply Rcomb_zero|]. intros i _. destruct (proj1 (andb_true_iff _ _) (Hs i)) as [_ Q].
    rewrite H1 in Q. destruct (Req_EM_T (value a) 0); [|contradiction]. destruct (Req_EM_T (slope (f i)) 0); [assumption|discriminate].
  - destruct (Rlt_dec 0 (value a)) as [P|P].
    + rewrite E. apply Rcomb_ext. intros i _. rewrite H1. destruct (Rlt_dec 0 (value a)); [reflexivity|contradiction].
    + rewrite (Rcomb_ext d v _ (fun _ => 0%R)); [symmetry; apply Rcomb_zero|]. intros i _. rewrite H1. destruct (Rlt_dec 0 (value a)); [contradiction|reflexivity].
Qed.

Lemma crelu_linear d v f a : linear (Ccomb d v) f a -> linear (Ccomb d v) (fun i => crelu_dual (f i)) (crelu_dual a).
Proof.
  intros [H1 H2].
  assert (A : linear (Rcomb d v) (fun i => {| value := Re (value (f i)); slope := Re (slope (f i)); smooth := smooth (f i) |})
    {| value := Re (value a); slope := Re (slope a); smooth := smooth a |}).
  { split; cbn [value slope smooth]; [intros i; now rewrite H1|]. intros Hs. destruct (H2 Hs) as [S E]. split; [exact S|]. rewrite E, Ccomb_parts. reflexivity. }
  assert (B : linear (Rcomb d v) (fun i => {| value := Im (value (f i)); slope := Im (slope (f i)); smooth := smooth (f i) |})
    {| value := Im (value a); slope := Im (slope a); smooth := smooth a |}).
  { split; cbn [value slope smooth]; [intros i; now rewrite H1|]. intros Hs. destruct (H2 Hs) as [S E]. split; [exact S|]. rewrite E, Ccomb_parts. reflexivity. }
  apply relu_linear in A as [A1 A2], B as [B1 B2]. split.
  - intros i. unfold crelu_dual. cbn [value]. now rewrite A1, B1.
  - unfold crelu_dual at 1 2 3. cbn [smooth slope]. intros Hs.
    destruct A2 as [A3 A4]; [intros i; destruct (proj1 (andb_true_iff _ _) (Hs i)); assumption|].
    destruct B2 as [B3 B4]; [intros i; destruct (proj1 (andb_true_iff _ _) (Hs i)); assumption|].
    split; [now rewrite A3, B3|]. rewrite A4, B4, Ccomb_parts. reflexivity.
Qed.

Lemma lncosh_linear d v f a : linear (Ccomb d v) f a -> linear (Ccomb d v) (fun i => lncosh_dual (f i)) (lncosh_dual a).
Proof.
  intros [H1 H2]. split; [intros i; cbn [lncosh_dual value]; now rewrite H1|]. cbn [lncosh_dual smooth slope]. intros Hs.
  destruct H2 as [S E]; [intros i; destruct (proj1 (andb_true_iff _ _) (Hs i)); assumption|]. split.
  - rewrite S. destruct (proj1 (andb_true_iff _ _) (Hs 0)) as [_ Q]. now rewrite H1 in Q.
  - rewrite E, <- Ccomb_right. apply Ccomb_ext. intros i _. now rewrite H1.
Qed.

(** * From the features to the log wave function *)
Definition row_linear (d : nat) (v : list R) (D : nat -> list C) (e : list C) : Prop :=
  (forall i, length (D i) = length e) /\ forall k, nth k e C0 = Ccomb d v (fun i => nth k (D i) C0).

Lemma normalize_slope_nth z e k : length z = length e -> k < length e -> nth k (normalize_slope z e) C0 =
  (nth k e C0 - RtoC (Rsum (fun j => exp (2 * Re (nth j z C0)) * Re (nth j e C0)) (range (length e)) / Rsum (fun a => exp (2 * Re a)) z)%R)%C.
Proof.
  intros L Hk. unfold normalize_slope. set (m := (Rsum _ (combine _ _) / _)%R).
  rewrite (nth_indep (map _ e) C0 (C0 - RtoC m)%C) by now rewrite map_length. rewrite (map_nth (fun x => (x - RtoC m)%C)). do 2 f_equal.
  unfold m. f_equal. rewrite (Rsum_nth (fun p => exp (2 * Re (fst p)) * Re (snd p))%R (combine z e) (C0, C0)). rewrite combine_length, L, Nat.min_id.
  apply Rsum_ext. intros j _. rewrite nth_combine_in by exact L. reflexivity.
Qed.

Lemma normalize_linear d v z D e : length z = length e -> row_linear d v D e -> row_linear d v (fun i => normalize_slope z (D i)) (normalize_slope z e).
Proof.
  intros Lz [L H]. split; [intros i; unfold normalize_slope; now rewrite !map_length|]. intros k.
  destruct (Nat.lt_ge_cases k (length e)) as [Hk|Hk].
  2:{ rewrite nth_overflow by (unfold normalize_slope; now rewrite map_length). rewrite (Ccomb_ext d v _ (fun _ => C0)); [symmetry; apply Ccomb_zero|].
      intros i _. apply nth_overflow. unfold normalize_slope. now rewrite map_length, L. }
  rewrite normalize_slope_nth by assumption. set (S0 := Rsum (fun a => exp (2 * Re a))%R z).
  rewrite (Ccomb_ext d v _ (fun i => nth k (D i) C0 + RtoC (- / S0) * RtoC (Rsum (fun j => exp (2 * Re (nth j z C0)) * Re (nth j (D i) C0))%R (range (length e))))%C).
  2:{ intros i _. rewrite normalize_slope_nth by (rewrite ?L; assumption). rewrite L. fold S0. unfold Rdiv, Cminus, Cplus, Cmult, Copp, RtoC, Re, Im. cbn [fst snd]. f_equal; ring. }
  rewrite Ccomb_plus, Ccomb_left, <- H. 
  assert (Q : Ccomb d v (fun i => RtoC (Rsum (fun j => exp (2 * Re (nth j z C0)) * Re (nth j (D i) C0))%R (range (length e)))) =
    RtoC (Rsum (fun j => exp (2 * Re (nth j z C0)) * Re (nth j e C0))%R (range (length e)))).
  { rewrite Ccomb_parts. unfold RtoC, Re at 1, Im at 1. cbn [fst snd]. rewrite Rcomb_zero. f_equal.
    rewrite (Rcomb_sum d v (fun j i => exp (2 * Re (nth j z C0)) * Re (nth j (D i) C0))%R). apply Rsum_ext. intros j _. rewrite Rcomb_left. f_equal.
    rewrite H, Ccomb_parts. reflexivity. }
  rewrite Q. unfold Rdiv, Cminus, Cplus, Cmult, Copp, RtoC, Re, Im. cbn [fst snd]. f_equal; ring.
Qed.

Lemma row_combine_linear d v (h : list R) : forall D e, row_linear d v D e ->
  Csum (fun z => z) (map2 (fun c r => (c * RtoC r)%C) e h) = Ccomb d v (fun i => Csum (fun z => z) (map2 (fun c r => (c * RtoC r)%C) (D i) h)).
Proof.
  induction h as [|r h IH]; intros D e [L H].
  - rewrite (Ccomb_ext d v _ (fun _ => C0)) by (intros i _; destruct (D i); reflexivity). rewrite Ccomb_zero. destruct e; reflexivity.
  - destruct e as [|x e].
    + rewrite (Ccomb_ext d v _ (fun _ => C0)); [symmetry; apply Ccomb_zero|]. intros i _. specialize (L i). destruct (D i); [reflexivity|discriminate].
    + rewrite (Ccomb_ext d v _ (fun i => nth 0 (D i) C0 * RtoC r + Csum (fun z => z) (map2 (fun c r => (c * RtoC r)%C) (tl (D i)) h))%C).
      2:{ intros i _. specialize (L i). destruct (D i); [discriminate|]. reflexivity. }
      rewrite Ccomb_plus, Ccomb_right, <- (H 0). cbn [map2 nth]. rewrite Csum_cons. f_equal. apply (IH (fun i => tl (D i))). split.
      * intros i. specialize (L i). destruct (D i); [discriminate|]. now inversion L.
      * intros k. rewrite (Ccomb_ext d v _ (fun i => nth (S k) (D i) C0)); [apply (H (S k))|]. intros i _. specialize (L i). destruct (D i); [discriminate|reflexivity].
Qed.

Lemma rows_combine_linear d v : forall (hs : list (list R)) (L : list nat) (F : nat -> nat -> list C) e, (forall j, In j L -> row_linear d v (F j) (e j)) ->
  combine_complex (map e L) hs = Ccomb d v (fun i => combine_complex (map (fun j => F j i) L) hs).
Proof.
  intros hs. induction hs as [|h hs IH]; intros L F e H; unfold combine_complex in *.
  - rewrite (Ccomb_ext d v _ (fun _ => C0)) by (intros i _; destruct L; reflexivity). rewrite Ccomb_zero. destruct L; reflexivity.
  - destruct L as [|j L]; [symmetry; apply Ccomb_zero|]. cbn [map map2 concat]. rewrite Csum_app.
    rewrite (Ccomb_ext d v _ (fun i => Csum (fun z => z) (map2 (fun c r => (c * RtoC r)%C) (F j i) h) +
      Csum (fun z => z) (concat (map2 (map2 (fun c r => (c * RtoC r)%C)) (map (fun j => F j i) L) hs)))%C) by (intros i _; apply Csum_app).
    rewrite Ccomb_plus. rewrite <- (row_combine_linear d v h (F j) (e j)) by (apply H; now left). f_equal. apply IH. intros k Hk. apply H. now right.
Qed.

Lemma final_linear {T} (N : numbers T) d v (comb : (nat -> T) -> T) (read : list T -> list C) (outs : nat -> res (ktensor (dual T))) (out : res (ktensor (dual T)))
    (shape : list nat) (s : list Z) :
  res_rel (krel (dual_numbers N) (dual_numbers N) (linear comb)) outs out ->
  (forall Y l F, out = Ok Y -> vec_rel (dual_numbers N) (dual_numbers N) (linear comb) F (tval (kt Y) l) -> (forall i, forallb smooth (F i) = true) ->
     forallb smooth (tval (kt Y) l) = true /\ row_linear d v (fun i => read (map slope (F i))) (read (map slope (tval (kt Y) l))) /\
     length (read (map value (tval (kt Y) l))) = length (read (map slope (tval (kt Y) l))) /\ forall i, read (map value (F i)) = read (map value (tval (kt Y) l))) ->
  (forall i, all_smooth (outs i) shape (length s) = true) ->
  all_smooth out shape (length s) = true /\ log_psi_slope read out shape s = Ccomb d v (fun i => log_psi_slope read (outs i) shape s).
Proof.
  intros HR Hread S. destruct out as [Y|e]; cbn [res_rel] in HR.
  2:{ split; [reflexivity|]. cbn [log_psi_slope]. rewrite (Ccomb_ext d v _ (fun _ => C0)); [symmetry; apply Ccomb_zero|]. intros i _. now rewrite HR. }
  destruct HR as (X & E & [HX _]).
  assert (K : forall j, In j (range (length s)) -> forall i, forallb smooth (tval (kt (X i)) (location shape j)) = true).
  { intros j Hj i. specialize (S i). rewrite E in S. cbn [all_smooth] in S. rewrite forallb_forall in S. now apply S. }
  assert (Q := fun j Hj => Hread Y (location shape j) (fun i => tval (kt (X i)) (location shape j)) eq_refl (proj2 HX _) (K j Hj)).
  split; [cbn [all_smooth]; apply forallb_forall; intros j Hj; apply (Q j Hj)|].
  cbn [log_psi_slope]. unfold predictions_slope.
  rewrite (rows_combine_linear d v _ (range (length s))
    (fun j i => normalize_slope (read (map value (tval (kt Y) (location shape j)))) (read (map slope (tval (kt (X i)) (location shape j)))))
    (fun j => normalize_slope (read (map value (tval (kt Y) (location shape j)))) (read (map slope (tval (kt Y) (location shape j)))))).
  - apply Ccomb_ext. intros i _. rewrite E. cbn [log_psi_slope]. unfold predictions_slope. f_equal. apply map_ext_in. intros j Hj. f_equal. symmetry. apply (Q j Hj).
  - intros j Hj. destruct (Q j Hj) as (_ & A & B & _). now apply normalize_linear.
Qed.

Lemma vec_linear {T} (N : numbers T) comb F v : vec_rel (dual_numbers N) (dual_numbers N) (linear comb) F v -> (forall i, forallb smooth (F i) = true) ->
  forallb smooth v = true /\ (forall k, nth k (map slope v) (zero N) = comb (fun i => slope (nth k (F i) (zero (dual_numbers N))))) /\ forall i, map value (F i) = map value v.
Proof.
  intros [L H] S.
  assert (A : forall k i, smooth (nth k (F i) (zero (dual_numbers N))) = true).
  { intros k i. destruct (Nat.lt_ge_cases k (length (F i))) as [Lk|Lk]; [|now rewrite nth_overflow]. specialize (S i). rewrite forallb_forall in S. apply S. now apply nth_In. }
  split; [|split].
  - apply forallb_forall. intros x Hx. apply (In_nth _ _ (zero (dual_numbers N))) in Hx as (k & _ & <-). apply (H k), A.
  - intros k. change (zero N) with (slope (zero (dual_numbers N))). rewrite map_nth. apply (H k), A.
  - intros i. apply (nth_ext _ _ (zero N) (zero N)); [now rewrite !map_length, L|]. intros k _.
    change (zero N) with (value (zero (dual_numbers N))). rewrite !map_nth. apply (H k).
Qed.

Lemma complex_row_linear d v F x : vec_rel (dual_numbers complex_numbers) (dual_numbers complex_numbers) (linear (Ccomb d v)) F x -> (forall i, forallb smooth (F i) = true) ->
  forallb smooth x = true /\ row_linear d v (fun i => map slope (F i)) (map slope x) /\ length (map value x) = length (map slope x) /\ forall i, map value (F i) = map value x.
Proof.
  intros H S. destruct (vec_linear complex_numbers _ F x H S) as (A & B & E). split; [exact A|]. split; [|split; [now rewrite !map_length|exact E]]. split.
  - intros i. rewrite !map_length. apply H.
  - intros k. change C0 with (zero complex_numbers) at 1. rewrite B. apply Ccomb_ext. intros i _.
    change C0 with (slope (zero (dual_numbers complex_numbers))). now rewrite map_nth.
Qed.

Lemma real_row_linear d v m F x : length x = 2 * m -> vec_rel (dual_numbers real_numbers) (dual_numbers real_numbers) (linear (Rcomb d v)) F x -> (forall i, forallb smooth (F i) = true) ->
  forallb smooth x = true /\ row_linear d v (fun i => vector_to_complex (map slope (F i))) (vector_to_complex (map slope x)) /\
  length (vector_to_complex (map value x)) = length (vector_to_complex (map slope x)) /\ forall i, vector_to_complex (map value (F i)) = vector_to_complex (map value x).
Proof.
  intros L H S. destruct (vec_linear real_numbers _ F x H S) as (A & B & E). destruct H as [LF _]. split; [exact A|]. split; [|split].
  - split.
    + intros i. rewrite (vector_to_complex_length _ m), (vector_to_complex_length _ m); rewrite ?map_length, ?LF; auto.
    + intros k. rewrite (nth_vector_to_complex _ m) by now rewrite map_length.
      rewrite (Ccomb_ext d v _ (fun i => if k <? m then (nth k (map slope (F i)) 0, nth (m + k) (map slope (F i)) 0)%R else C0)).
      2:{ intros i _. apply nth_vector_to_complex. now rewrite map_length, LF. }
      destruct (k <? m); [|symmetry; apply Ccomb_zero]. rewrite Ccomb_parts. unfold Re, Im. cbn [fst snd].
      change 0%R with (zero real_numbers) at 1 2. rewrite !B. f_equal; apply Rcomb_ext; intros i _; change 0%R with (slope (zero (dual_numbers real_numbers))); now rewrite map_nth.
  - rewrite (vector_to_complex_length _ m), (vector_to_complex_length _ m); rewrite ?map_length; auto.
  - intros i. now rewrite E.
Qed.

(** * Directions *)
Definition direction (d i : nat) : list R := unit_vector d (if i <? d then i else 0).

Lemma direction_sum d v k : length v = d -> nth k v 0%R = Rcomb d v (fun i => nth k (direction d i) 0%R).
Proof.
  intros L. rewrite (Rcomb_ext d v _ (fun i => if k =? i then 1%R else 0%R)).
  2:{ intros i Hi. unfold direction. rewrite (proj2 (Nat.ltb_lt i d) Hi). now apply nth_unit_vector. }
  unfold Rcomb. destruct (Nat.lt_ge_cases k d) as [Hk|Hk].
  - rewrite (Rsum_single_seq _ k d Hk); [rewrite Nat.eqb_refl; ring|]. intros j _ Hj. destruct (Nat.eqb_spec k j); [congruence|ring].
  - rewrite nth_overflow by lia. rewrite (Rsum_ext _ (fun _ => 0%R)); [symmetry; apply Rsum_zero|]. intros i Hi. apply in_seq in Hi. destruct (Nat.eqb_spec k i); [lia|ring].
Qed.

Lemma layer_linear a w v : forall d, length v = d -> wrel (linear (Rcomb d v)) (fun i => weights_with_slope w (layer_weights a (direction d i))) (weights_with_slope w (layer_weights a v)).
Proof.
  intros d L. apply (linear_weights (Rcomb d v) w (fun i => layer_weights a (direction d i)) (layer_weights a v)); intros j; cbn [layer_weights kernel_at bias_at]; now apply direction_sum.
Qed.
Lemma complex_layer_linear re im w v : forall d, length v = d ->
  wrel (linear (Ccomb d v)) (fun i => weights_with_slope w (complex_layer_weights re im (direction d i))) (weights_with_slope w (complex_layer_weights re im v)).
Proof.
  intros d L. apply (linear_weights (Ccomb d v) w (fun i => complex_layer_weights re im (direction d i)) (complex_layer_weights re im v)); intros j;
    cbn [complex_layer_weights kernel_at bias_at]; rewrite Ccomb_parts; unfold Re, Im; cbn [fst snd]; f_equal; now apply direction_sum.
Qed.

(** * Machines *)
Lemma relu_dual_zero : relu_dual (zero (dual_numbers real_numbers)) = zero (dual_numbers real_numbers).
Proof.
  unfold relu_dual. cbn [dual_numbers zero constant value slope smooth real_numbers]. unfold constant. f_equal.
  - apply Rmax_left. lra.
  - destruct (Rlt_dec 0 0); [lra|reflexivity].
  - destruct (Req_EM_T 0 0); reflexivity || contradiction.
Qed.
Lemma lncosh_dual_zero : lncosh_dual (zero (dual_numbers complex_numbers)) = zero (dual_numbers complex_numbers).
Proof.
  assert (T0 : twice_cosh C0 = (2, 0)%R).
  { unfold twice_cosh, Cexp, C0, Copp, Cplus, Re, Im. cbn [fst snd]. rewrite Ropp_0, exp_0, cos_0, sin_0. apply C_eq; unfold Re, Im; cbn [fst snd]; ring. }
  assert (L0 : lncosh C0 = C0).
  { rewrite lncosh_log by (rewrite T0; intros E; apply (f_equal Re) in E; cbn in E; lra). rewrite T0. unfold complex_log, Cmod, Cnorm2, angle, atan2, Re, Im. cbn [fst snd].
    destruct (Rlt_dec 0 2); [|lra]. replace (2 * 2 + 0 * 0)%R with (2 * 2)%R by ring. rewrite sqrt_square by lra. unfold Rdiv. rewrite Rmult_0_l, atan_0.
    apply C_eq; unfold Cminus, Copp, Cplus, RtoC, C0, Re, Im; cbn [fst snd]; ring. }
  unfold lncosh_dual. cbn [dual_numbers zero constant value slope smooth complex_numbers]. unfold constant. cbn [zero complex_numbers].
  rewrite T0, L0. unfold Re at 1. cbn [fst]. destruct (Rlt_dec 0 2); [|lra]. replace (C0 * complex_tanh C0)%C with C0 by ring. reflexivity.
Qed.
Lemma crelu_dual_zero : crelu_dual (zero (dual_numbers complex_numbers)) = zero (dual_numbers complex_numbers).
Proof.
  unfold crelu_dual. cbn [dual_numbers zero constant value slope smooth complex_numbers]. change (Re C0) with 0%R. change (Im C0) with 0%R.
  change {| value := 0%R; slope := 0%R; smooth := true |} with (zero (dual_numbers real_numbers)). rewrite relu_dual_zero. reflexivity.
Qed.
Lemma real_machine_linear p dact places n w v s : (dact = None \/ dact = Some relu_dual_row) ->
  (forall i, all_smooth (real_1d_out p dact places n w (direction (length v) i) s) [n] (length s) = true) ->
  all_smooth (real_1d_out p dact places n w v s) [n] (length s) = true /\
  log_psi_slope vector_to_complex (real_1d_out p dact places n w v s) [n] s =
    Ccomb (length v) v (fun i => log_psi_slope vector_to_complex (real_1d_out p dact places n w (direction (length v) i) s) [n] s).
Proof.
  intros HA S. set (d := length v) in *.
  apply (final_linear real_numbers d v (Rcomb d v) vector_to_complex (fun i => real_1d_out p dact places n w (direction d i) s) _ [n] s).
  - apply (linear_features_1d real_numbers d (Rcomb d v) (Rcomb_ext d v) (Rcomb_zero d v) (Rcomb_plus d v) (Rcomb_left d v) (Rcomb_right d v) p
      (fun i l => weights_with_slope (layer_weights (places l) w) (layer_weights (places l) (direction d i))) _ dact dact _ _ _ (fun _ => constant_input real_numbers IZR [n] s)).
    + intros l. now apply layer_linear.
    + destruct HA as [->| ->]; [exact Logic.I|]. apply (linear_map real_numbers d (Rcomb d v) (Rcomb_ext d v)).
      * apply relu_dual_zero.
      * apply relu_linear.
    + apply (linear_input real_numbers (Rcomb d v) (Rcomb_zero d v)).
  - intros Y l F E. apply (real_row_linear d v 2). exact (proj1 (features_1d_rows _ _ _ _ _ _ _ _ _ l E)).
  - exact S.
Qed.

Lemma complex_machine_linear p dact re im n w v s : (dact = None \/ dact = Some lncosh_dual_row \/ dact = Some crelu_dual_row) ->
  (forall i, all_smooth (complex_1d_out p dact re im n w (direction (length v) i) s) [n] (length s) = true) ->
  all_smooth (complex_1d_out p dact re im n w v s) [n] (length s) = true /\
  log_psi_slope (fun v => v) (complex_1d_out p dact re im n w v s) [n] s =
    Ccomb (length v) v (fun i => log_psi_slope (fun v => v) (complex_1d_out p dact re im n w (direction (length v) i) s) [n] s).
Proof.
  intros HA S. set (d := length v) in *.
  apply (final_linear complex_numbers d v (Ccomb d v) (fun v => v) (fun i => complex_1d_out p dact re im n w (direction d i) s) _ [n] s).
  - apply (linear_features_1d complex_numbers d (Ccomb d v) (Ccomb_ext d v) (Ccomb_zero d v) (Ccomb_plus d v) (Ccomb_left d v) (Ccomb_right d v) p
      (fun i l => weights_with_slope (complex_layer_weights (re l) (im l) w) (complex_layer_weights (re l) (im l) (direction d i))) _ dact dact _ _ _
      (fun _ => constant_input complex_numbers (fun z => RtoC (IZR z)) [n] s)).
    + intros l. now apply complex_layer_linear.
    + destruct HA as [->|[->| ->]]; [exact Logic.I| |]; apply (linear_map complex_numbers d (Ccomb d v) (Ccomb_ext d v)).
      * apply lncosh_dual_zero.
      * apply lncosh_linear.
      * apply crelu_dual_zero.
      * apply crelu_linear.
    + apply (linear_input complex_numbers (Ccomb d v) (Ccomb_zero d v)).
  - intros Y l F E. apply (complex_row_linear d v).
  - exact S.
Qed.

Lemma machine_2d_linear p places last h wd w v s :
  (forall i, all_smooth (real_2d_out p places last h wd w (direction (length v) i) s) [h; wd] (length s) = true) ->
  all_smooth (real_2d_out p places last h wd w v s) [h; wd] (length s) = true /\
  log_psi_slope vector_to_complex (real_2d_out p places last h wd w v s) [h; wd] s =
    Ccomb (length v) v (fun i => log_psi_slope vector_to_complex (real_2d_out p places last h wd w (direction (length v) i) s) [h; wd] s).
Proof.
  intros S. set (d := length v) in *.
  apply (final_linear real_numbers d v (Rcomb d v) vector_to_complex (fun i => real_2d_out p places last h wd w (direction d i) s) _ [h; wd] s).
  - apply (linear_features_2d real_numbers d (Rcomb d v) (Rcomb_ext d v) (Rcomb_zero d v) (Rcomb_plus d v) (Rcomb_left d v) (Rcomb_right d v) p
      (fun i b j => weights_with_slope (layer_weights (places b j) w) (layer_weights (places b j) (direction d i))) _
      (fun i => weights_with_slope (layer_weights last w) (layer_weights last (direction d i))) _ relu_dual_row relu_dual_row
      (fun _ => constant_input real_numbers IZR [h; wd] s)).
    + intros b j. now apply layer_linear.
    + now apply layer_linear.
    + apply (linear_map real_numbers d (Rcomb d v) (Rcomb_ext d v)); [apply relu_dual_zero|apply relu_linear].
    + apply (linear_input real_numbers (Rcomb d v) (Rcomb_zero d v)).
  - intros Y l F E. apply (real_row_linear d v 2). exact (proj1 (features_2d_rows _ _ _ _ _ _ _ l E)).
  - exact S.
Qed.

(** * Lines *)
Lemma line_place (w v : list R) k : length v = length w -> derivable_pt_lim (fun h => nth k (vadd w (vscale h v)) 0%R) 0 (nth k v 0%R).
Proof.
  intros L. apply (limit_ext (fun h => nth k w 0 + nth k v 0 * h)%R); [intros h; rewrite nth_vadd by (rewrite vscale_length; congruence); rewrite nth_vscale; ring|].
  eapply limit_value; [|apply plus_limit; [apply const_limit|apply (derivable_pt_lim_scal id); apply derivable_pt_lim_id]]. ring.
Qed.
Lemma line_layer a (w v : list R) : length v = length w -> weights_derive (fun h => layer_weights a (vadd w (vscale h v))) 0 (layer_weights a v).
Proof. intros L. split; intros j; now apply line_place. Qed.
Lemma line_complex_layer re im (w v : list R) : length v = length w ->
  complex_weights_derive (fun h => complex_layer_weights re im (vadd w (vscale h v))) 0 (complex_layer_weights re im v).
Proof. intros L. split; intros j; split; now apply line_place. Qed.

Lemma slopes_line n (log_psi : list R -> list Z -> C) (along : list R -> list R -> list Z -> C) (w : list R) :
  (0 < length w -> forall v s, length v = length w -> In s (spin_configs n) ->
     Cderive (fun h => log_psi (vadd w (vscale h v)) s) 0 (Ccomb (length w) v (fun i => along w (direction (length w) i) s))) ->
  line_gradient n (length w) log_psi (fun w => sample_loss_slope (length w) (along w)) w.
Proof.
  intros H. split; [intros x; unfold sample_loss_slope; now rewrite map_length, range_length|]. intros v s t Lv Hs.
  set (d := length w) in *.
  assert (E : inner_product d v (sample_loss_slope d (along w) (s, t)) = (2 * Re (Ccomb d v (fun i => along w (direction d i) s) * t)%C)%R).
  { unfold inner_product, sample_loss_slope. cbn [fst snd]. rewrite <- Ccomb_right, Ccomb_parts.
    match goal with |- _ = (2 * Re (?a, _))%R => change (Re (a, _)) with a end. rewrite <- Rcomb_left.
    apply Rcomb_ext. intros i Hi. unfold range.
    rewrite (nth_indep _ 0%R ((fun i => 2 * Re (along w (unit_vector d i) s * t)%C)%R 0%nat)) by now rewrite map_length, seq_length.
    rewrite (map_nth (fun i => 2 * Re (along w (unit_vector d i) s * t)%C)%R), seq_nth by exact Hi. cbn [Nat.add].
    unfold direction. rewrite (proj2 (Nat.ltb_lt i d) Hi). reflexivity. }
  destruct (Nat.eq_dec d 0) as [Z|Z].
  - unfold d in Z. apply length_zero_iff_nil in Z. apply (limit_ext (fun _ => 2 * Re (log_psi w s * t)%C)%R).
    + intros h. rewrite Z. reflexivity.
    + unfold d. rewrite Z. unfold inner_product. cbn [length seq]. rewrite Rsum_nil. apply const_limit.
  - rewrite E. apply GradientLossProofs.loss_slope. apply H; auto. lia.
Qed.

Lemma all_directions {d} (P : list R -> Prop) : 0 < d -> (forall i, i < d -> P (unit_vector d i)) -> forall i, P (direction d i).
Proof. intros Hd H i. unfold direction. destruct (Nat.ltb_spec i d); apply H; assumption. Qed.

Lemma real_1d_line p act dact places n w : real_activation act dact ->
  (forall i s, i < length w -> In s (spin_configs n) -> all_smooth (real_1d_out p dact places n w (unit_vector (length w) i) s) [n] (length s) = true) ->
  line_gradient n (length w) (fun w => predictions (conditionals (simple_conv_net_1d p (fun l => layer_weights (places l) w) act) [n])) (real_1d_gradient p dact places n) w.
Proof.
  intros HA HS. unfold real_1d_gradient.
  apply (slopes_line n (fun w => predictions (conditionals (simple_conv_net_1d p (fun l => layer_weights (places l) w) act) [n]))
    (fun w v s => log_psi_slope vector_to_complex (real_1d_out p dact places n w v s) [n] s)).
  intros Hd v s Lv Hs.
  destruct (real_machine_linear p dact places n w v s) as [S E].
  { destruct HA as [[_ ->]|[_ ->]]; auto. }
  { rewrite Lv. apply (all_directions (fun u => all_smooth (real_1d_out p dact places n w u s) [n] (length s) = true)); [exact Hd|]. intros i Hi. now apply HS. }
  rewrite Lv in E. rewrite <- E.
  pose proof (real_machine_derive p (fun h l => layer_weights (places l) (vadd w (vscale h v))) (fun l => layer_weights (places l) v) 0 act dact n s HA
    (fun l => line_layer (places l) w v Lv)) as D. cbv zeta beta in D. rewrite (along_zero w v (length w) eq_refl Lv) in D. exact (D S).
Qed.

Lemma complex_1d_line p act dact re im n w : complex_activation act dact ->
  (forall i s, i < length w -> In s (spin_configs n) -> all_smooth (complex_1d_out p dact re im n w (unit_vector (length w) i) s) [n] (length s) = true) ->
  line_gradient n (length w) (fun w => predictions (conditionals (complex_conv_net_1d p (fun l => complex_layer_weights (re l) (im l) w) act) [n]))
    (complex_1d_gradient p dact re im n) w.
Proof.
  intros HA HS. unfold complex_1d_gradient.
  apply (slopes_line n (fun w => predictions (conditionals (complex_conv_net_1d p (fun l => complex_layer_weights (re l) (im l) w) act) [n]))
    (fun w v s => log_psi_slope (fun v => v) (complex_1d_out p dact re im n w v s) [n] s)).
  intros Hd v s Lv Hs.
  destruct (complex_machine_linear p dact re im n w v s) as [S E].
  { destruct HA as [[_ ->]|[[_ ->]|[_ ->]]]; auto. }
  { rewrite Lv. apply (all_directions (fun u => all_smooth (complex_1d_out p dact re im n w u s) [n] (length s) = true)); [exact Hd|]. intros i Hi. now apply HS. }
  rewrite Lv in E. rewrite <- E.
  pose proof (complex_machine_derive p (fun h l => complex_layer_weights (re l) (im l) (vadd w (vscale h v))) (fun l => complex_layer_weights (re l) (im l) v) 0 act dact n s HA
    (fun l => line_complex_layer (re l) (im l) w v Lv)) as D. cbv zeta beta in D. rewrite (along_zero w v (length w) eq_refl Lv) in D. exact (D S).
Qed.

Lemma real_2d_line p places last h wd w :
  (forall i s, i < length w -> In s (spin_configs (h * wd)) ->
     all_smooth (real_2d_out p places last h wd w (unit_vector (length w) i) s) [h; wd] (length s) = true) ->
  line_gradient (h * wd) (length w)
    (fun w => predictions (conditionals (conv_net_2d p (fun b j => layer_weights (places b j) w) (layer_weights last w) relu_row) [h; wd]))
    (real_2d_gradient p places last h wd) w.
Proof.
  intros HS. unfold real_2d_gradient.
  apply (slopes_line (h * wd) (fun w => predictions (conditionals (conv_net_2d p (fun b j => layer_weights (places b j) w) (layer_weights last w) relu_row) [h; wd]))
    (fun w v s => log_psi_slope vector_to_complex (real_2d_out p places last h wd w v s) [h; wd] s)).
  intros Hd v s Lv Hs.
  destruct (machine_2d_linear p places last h wd w v s) as [S E].
  { rewrite Lv. apply (all_directions (fun u => all_smooth (real_2d_out p places last h wd w u s) [h; wd] (length s) = true)); [exact Hd|]. intros i Hi. now apply HS. }
  rewrite Lv in E. rewrite <- E.
  pose proof (machine_2d_derive p (fun t b j => layer_weights (places b j) (vadd w (vscale t v))) (fun b j => layer_weights (places b j) v)
    (fun t => layer_weights last (vadd w (vscale t v))) (layer_weights last v) 0 h wd s
    (fun b j => line_layer (places b j) w v Lv) (line_layer last w v Lv)) as D. cbv zeta beta in D. rewrite (along_zero w v (length w) eq_refl Lv) in D. exact (D S).
Qed.
