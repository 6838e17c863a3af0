(** Lemmas about utils/jacobian.py. *)
From Coq Require Import List ZArith Reals Bool Arith Lia Lra.
From Verif Require Import Base Cplx JacobianModel JacobianSpec.
Import ListNotations.

Lemma tabulate_length {A} n (f : nat -> A) : length (tabulate n f) = n.
Proof. unfold tabulate. now rewrite map_length, seq_length. Qed.
Lemma nth_tabulate {A} n (f : nat -> A) i d : i < n -> nth i (tabulate n f) d = f i.
Proof.
  intros H. unfold tabulate. rewrite (nth_indep _ d (f 0)) by (rewrite map_length, seq_length; lia). rewrite (map_nth f), seq_nth by lia. reflexivity.
Qed.
Lemma tabulate_ext {A} n (f g : nat -> A) : (forall i, i < n -> f i = g i) -> tabulate n f = tabulate n g.
Proof. intros H. apply map_ext_in. intros i Hi. apply in_seq in Hi. apply H. lia. Qed.
Lemma hd_tabulate {A} n (f : nat -> A) d : 0 < n -> hd d (tabulate n f) = f 0.
Proof. destruct n; [lia|reflexivity]. Qed.
Lemma map_tabulate {A B} (g : A -> B) n f : map g (tabulate n f) = tabulate n (fun i => g (f i)).
Proof. unfold tabulate. apply map_map. Qed.

Lemma concat_tensor {A} h w (f : nat -> nat -> A) : concat (tabulate h (fun a => tabulate w (f a))) = map (fun p => f (fst p) (snd p)) (sites h w).
Proof.
  unfold tabulate, sites. generalize (seq 0 h) as l. intros l. induction l as [|a l IH]; [reflexivity|]. cbn [map concat list_prod]. rewrite IH, map_app, map_map.
  reflexivity.
Qed.
Lemma flat_map_sites {A} h w (f : nat -> nat -> A) : flat_map (fun a => map (fun b => f a b) (range w)) (range h) = map (fun p => f (fst p) (snd p)) (sites h w).
Proof. rewrite <- (concat_tensor h w f). rewrite flat_map_concat_map. reflexivity. Qed.
Lemma map2_map {A B C D} (f : B -> C -> D) (g : A -> B) (h : A -> C) l : map2 f (map g l) (map h l) = map (fun a => f (g a) (h a)) l.
Proof. induction l as [|a l IH]; [reflexivity|]. cbn. now rewrite IH. Qed.
Lemma in_sites h w p : In p (sites h w) -> fst p < h /\ snd p < w.
Proof. destruct p. intros H. apply in_prod_iff in H. rewrite !in_seq in H. cbn. lia. Qed.
Lemma in_taps kh kw c k l i : In (k, l, i) (taps kh kw c) -> k < kh /\ l < kw /\ i < c.
Proof. intros H. apply in_prod_iff in H. destruct H as [H1 H2]. apply in_prod_iff in H1. rewrite !in_seq in *. lia. Qed.

Section Entries.
  Context {A : Type} (zero : A) (add mul : A -> A -> A).

  Lemma conv_kernel oh ow kh kw channels filters (x g : nat -> nat -> nat -> A) : 0 < oh -> 0 < ow -> 0 < kh -> 0 < kw -> 0 < channels ->
    conv2d_kernel_jacobian zero add mul 1 1 filters (tensor3 (oh + kh - 1) (ow + kw - 1) channels x) (tensor3 oh ow filters g) =
    tensor4 kh kw channels filters (fun k l i o => total zero add (map (fun p => mul (g (fst p) (snd p) o) (x (fst p + k) (snd p + l) i)) (sites oh ow))).
  Proof.
    intros Hoh How Hkh Hkw Hc. unfold conv2d_kernel_jacobian. cbv zeta.
    assert (E1 : length (tensor3 oh ow filters g) = oh) by apply tabulate_length.
    assert (E2 : length (hd [] (tensor3 oh ow filters g)) = ow) by (unfold tensor3; rewrite hd_tabulate by lia; apply tabulate_length).
    assert (E3 : length (hd [] (hd [] (tensor3 (oh + kh - 1) (ow + kw - 1) channels x))) = channels).
    { unfold tensor3, tensor2. rewrite !hd_tabulate by lia. apply tabulate_length. }
    rewrite E1, E2, E3.
    set (images := map _ (range channels)).
    assert (I : images = tabulate channels (fun c => tensor2 (oh + kh - 1) (ow + kw - 1) (fun a b => x a b c))).
    { unfold images, tabulate at 1, range. apply map_ext_in. intros c H. apply in_seq in H. unfold tensor3, tensor2. rewrite map_tabulate.
      apply tabulate_ext. intros a Ha. rewrite map_tabulate. apply tabulate_ext. intros b Hb. apply nth_tabulate. lia. }
    assert (P : map (extract_image_patches zero oh ow 1 1) images =
      tabulate channels (fun c => tensor2 kh kw (fun k l => map (fun p => x (fst p + k) (snd p + l) c) (sites oh ow)))).
    { rewrite I, map_tabulate. apply tabulate_ext. intros c Hc'. unfold extract_image_patches.
      assert (L1 : length (tensor2 (oh + kh - 1) (ow + kw - 1) (fun a b => x a b c)) - (oh - 1) * 1 = kh).
      { unfold tensor2. rewrite tabulate_length. lia. }
      assert (L2 : length (hd [] (tensor2 (oh + kh - 1) (ow + kw - 1) (fun a b => x a b c))) - (ow - 1) * 1 = kw).
      { unfold tensor2. rewrite hd_tabulate, tabulate_length by lia. lia. }
      rewrite L1, L2. unfold tensor2 at 2. unfold range at 1. fold (tabulate kh (fun k => map (fun y => flat_map (fun a => map (fun b =>
        nth (y + b * 1) (nth (k + a * 1) (tensor2 (oh + kh - 1) (ow + kw - 1) (fun a b => x a b c)) []) zero) (range ow)) (range oh)) (range kw))).
      apply tabulate_ext. intros k Hk. unfold tabulate, range at 1. apply map_ext_in. intros l Hl. apply in_seq in Hl.
      rewrite flat_map_sites. apply map_ext_in. intros p Hp. apply in_sites in Hp. unfold tensor2. rewrite !nth_tabulate by lia. f_equal; lia. }
    rewrite P. rewrite (hd_tabulate channels) by lia.
    set (T := tensor2 kh kw (fun k l => map (fun p => x (fst p + k) (snd p + l) 0) (sites oh ow))).
    assert (L1 : length T = kh) by apply tabulate_length.
    assert (L2 : length (hd [] T) = kw) by (unfold T, tensor2; rewrite hd_tabulate by lia; apply tabulate_length).
    rewrite L1, L2. clear T L1 L2.
    assert (G : concat (tensor3 oh ow filters g) = map (fun p => tabulate filters (g (fst p) (snd p))) (sites oh ow)).
    { unfold tensor3, tensor2. exact (concat_tensor oh ow (fun a b => tabulate filters (g a b))). }
    rewrite G. apply map_ext_in. intros k Hk. apply in_seq in Hk.
    apply map_ext_in. intros l Hl. apply in_seq in Hl.
    apply map_ext_in. intros i Hi. apply in_seq in Hi.
    apply map_ext_in. intros o Ho. apply in_seq in Ho.
    rewrite nth_tabulate by lia. unfold tensor2. rewrite !nth_tabulate by lia. rewrite map2_map. f_equal. apply map_ext. intros p.
    f_equal. rewrite nth_tabulate by lia. reflexivity.
  Qed.

  Lemma conv_bias oh ow filters (g : nat -> nat -> nat -> A) :
    conv2d_bias_jacobian zero add filters (tensor3 oh ow filters g) =
    tabulate filters (fun o => total zero add (map (fun p => g (fst p) (snd p) o) (sites oh ow))).
  Proof.
    unfold conv2d_bias_jacobian, tensor3, tensor2. rewrite concat_tensor. apply map_ext_in. intros o Ho. apply in_seq in Ho.
    rewrite map_map. f_equal. apply map_ext. intros p. apply nth_tabulate. lia.
  Qed.

  Lemma sites_column {B} n (f : nat * nat -> B) : map f (sites n 1) = map (fun a => f (a, 0)) (seq 0 n).
  Proof. unfold sites. generalize (seq 0 n) as l. intros l. induction l as [|a l IH]; [reflexivity|]. cbn [list_prod seq map app] in *. now rewrite IH. Qed.

  Lemma conv1d_kernel n k channels filters (x g : nat -> nat -> A) : 0 < n -> 0 < k -> 0 < channels ->
    conv1d_kernel_jacobian zero add mul 1 filters (tensor2 (n + k - 1) channels x) (tensor2 n filters g) =
    tensor3 k channels filters (fun t i o => total zero add (map (fun a => mul (g a o) (x (a + t) i)) (seq 0 n))).
  Proof.
    intros Hn Hk Hc. unfold conv1d_kernel_jacobian.
    assert (E1 : map (fun px => [px]) (tensor2 (n + k - 1) channels x) = tensor3 (n + k - 1) (1 + 1 - 1) channels (fun a _ c => x a c)).
    { unfold tensor2, tensor3. rewrite map_tabulate. reflexivity. }
    assert (E2 : map (fun px => [px]) (tensor2 n filters g) = tensor3 n 1 filters (fun a _ c => g a c)).
    { unfold tensor2, tensor3. rewrite map_tabulate. reflexivity. }
    rewrite E1, E2, conv_kernel by lia. unfold tensor4. rewrite map_tabulate. apply tabulate_ext. intros t Ht.
    unfold tensor3. rewrite nth_tabulate by lia. unfold tensor2. apply tabulate_ext. intros i Hi. apply tabulate_ext. intros o Ho.
    now rewrite sites_column.
  Qed.
  Lemma conv1d_bias n filters (g : nat -> nat -> A) :
    conv1d_bias_jacobian zero add filters (tensor2 n filters g) = tabulate filters (fun o => total zero add (map (fun a => g a o) (seq 0 n))).
  Proof.
    unfold conv1d_bias_jacobian, tensor2. apply map_ext_in. intros o Ho. apply in_seq in Ho. rewrite map_tabulate. f_equal.
    apply map_ext. intros a. apply nth_tabulate. lia.
  Qed.

  Lemma dense_kernel n filters (x g : nat -> A) :
    dense_kernel_jacobian mul (tabulate n x) (tabulate filters g) = tensor2 n filters (fun i o => mul (x i) (g o)).
  Proof. unfold dense_kernel_jacobian, tensor2. rewrite map_tabulate. apply tabulate_ext. intros i Hi. apply map_tabulate. Qed.
End Entries.

Lemma total_R {P} (f : P -> R) l : total 0%R Rplus (map f l) = Rsum f l.
Proof. induction l as [|a l IH]; [reflexivity|]. cbn [map total fold_right] in *. unfold total in IH. now rewrite IH, Rsum_cons. Qed.
Lemma total_C {P} (f : P -> C) l : total C0 Cplus (map f l) = Csum f l.
Proof. induction l as [|a l IH]; [reflexivity|]. cbn [map total fold_right] in *. unfold total in IH. now rewrite IH, Csum_cons. Qed.

(** The linear functional. *)
Lemma functional_R {P T} (g : P -> nat -> R) (x : P -> T -> R) (w : T -> nat -> R) (b : nat -> R) (ps : list P) (ts : list T) (os : list nat) :
  Rsum (fun o => Rsum (fun p => (g p o * (Rsum (fun t => x p t * w t o) ts + b o))%R) ps) os =
  (Rsum (fun o => Rsum (fun t => Rsum (fun p => g p o * x p t) ps * w t o) ts) os + Rsum (fun o => Rsum (fun p => g p o) ps * b o) os)%R.
Proof.
  rewrite <- Rsum_plus. apply Rsum_ext. intros o _.
  rewrite (Rsum_ext _ (fun p => Rsum (fun t => (g p o * x p t * w t o)%R) ts + g p o * b o)%R).
  - rewrite Rsum_plus, Rsum_exchange. f_equal.
    + apply Rsum_ext. intros t _. apply Rsum_scal_r.
    + apply Rsum_scal_r.
  - intros p _. rewrite Rmult_plus_distr_l. f_equal. rewrite <- Rsum_scal. apply Rsum_ext. intros t _. ring.
Qed.
Lemma functional_C {P T} (g : P -> nat -> C) (x : P -> T -> C) (w : T -> nat -> C) (b : nat -> C) (ps : list P) (ts : list T) (os : list nat) :
  Csum (fun o => Csum (fun p => (g p o * (Csum (fun t => x p t * w t o) ts + b o))%C) ps) os =
  (Csum (fun o => Csum (fun t => Csum (fun p => g p o * x p t) ps * w t o) ts) os + Csum (fun o => Csum (fun p => g p o) ps * b o) os)%C.
Proof.
  rewrite <- Csum_plus. apply Csum_ext. intros o _.
  rewrite (Csum_ext _ (fun p => Csum (fun t => (g p o * x p t * w t o)%C) ts + g p o * b o)%C).
  - rewrite Csum_plus, Csum_exchange. f_equal.
    + apply Csum_ext. intros t _. apply Csum_scal_r.
    + apply Csum_scal_r.
  - intros p _. replace (g p o * (Csum (fun t => x p t * w t o) ts + b o))%C with (g p o * Csum (fun t => x p t * w t o) ts + g p o * b o)%C by ring.
    f_equal. rewrite <- Csum_scal. apply Csum_ext. intros t _. ring.
Qed.

(** Real parts of sums. *)
Lemma Re_Csum {P} (f : P -> C) l : Re (Csum f l) = Rsum (fun p => Re (f p)) l.
Proof. induction l as [|a l IH]; [reflexivity|]. rewrite Csum_cons, Rsum_cons. unfold Re in *. cbn [Cplus fst]. now rewrite <- IH. Qed.

(** For complex layers with real input: [d] is the derivative of the prediction with respect to the output, TensorFlow gives its conjugate. *)
Lemma complex_functional {P T} (d : P -> nat -> C) (x : P -> T -> C) (re im : T -> nat -> R) (bre bim : nat -> R) ps ts os :
  (forall p t, Im (x p t) = 0%R) ->
  Re (Csum (fun o => Csum (fun p => (d p o * (Csum (fun t => x p t * (re t o, - im t o)%R) ts + (bre o, - bim o)%R))%C) ps) os) =
  (Rsum (fun o => Rsum (fun t => Re (Cconj (Csum (fun p => (Cconj (d p o) * x p t)%C) ps)) * re t o + Im (Cconj (Csum (fun p => (Cconj (d p o) * x p t)%C) ps)) * im t o) ts) os +
   Rsum (fun o => Re (Cconj (Csum (fun p => Cconj (d p o)) ps)) * bre o + Im (Cconj (Csum (fun p => Cconj (d p o)) ps)) * bim o) os)%R.
Proof.
  intros H. rewrite functional_C, Re_plus, !Re_Csum. f_equal.
  - apply Rsum_ext. intros o _. rewrite Re_Csum. apply Rsum_ext. intros t _.
    assert (E : Cconj (Csum (fun p => Cconj (d p o) * x p t)%C ps) = Csum (fun p => d p o * x p t)%C ps).
    { rewrite Csum_conj. apply Csum_ext. intros p _. rewrite Cconj_mult, Cconj_conj. f_equal.
      specialize (H p t). destruct (x p t) as [a b]. unfold Im in H. cbn [snd] in H. subst b. unfold Cconj. cbn [fst snd]. f_equal. ring. }
    rewrite E. destruct (Csum _ ps) as [a b]. unfold Re, Im, Cmult. cbn [fst snd]. ring.
  - apply Rsum_ext. intros o _.
    assert (E : Cconj (Csum (fun p => Cconj (d p o)) ps) = Csum (fun p => d p o) ps).
    { rewrite Csum_conj. apply Csum_ext. intros p _. apply Cconj_conj. }
    rewrite E. destruct (Csum _ ps) as [a b]. unfold Re, Im, Cmult. cbn [fst snd]. ring.
Qed.
