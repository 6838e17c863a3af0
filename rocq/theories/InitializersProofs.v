(** Proofs about random initial weights. *)
From Coq Require Import String List ZArith Arith Bool Reals Lra Lia.
From Verif Require Import Base Cplx ComplexModel InitializersModel InitializersSpec.
Import ListNotations.
Local Open Scope R_scope.
Local Open Scope string_scope.
Local Open Scope list_scope.


Lemma fold_mul l : forall a, fold_left Nat.mul l a = (a * entries l)%nat.
Proof. induction l as [|x l IH]; intros a; cbn [fold_left entries fold_right]; [lia|]. rewrite IH. unfold entries. lia. Qed.
Lemma product_entries l : product l = entries l.
Proof. unfold product. rewrite fold_mul. lia. Qed.

Lemma fans_ok shape fi fo : fans shape fi fo -> compute_fans shape = (fi, fo).
Proof.
  intros [(-> & -> & ->)|[(n & -> & -> & ->)|(size & cin & cout & -> & -> & ->)]]; [reflexivity|reflexivity|].
  destruct size as [|a size]; [cbn; f_equal; lia|].
  assert (L : (length ((a :: size) ++ [cin; cout]) - 2 = length (a :: size))%nat) by (rewrite app_length; cbn [length]; lia).
  assert (L1 : (length ((a :: size) ++ [cin; cout]) - 1 = length (a :: size) + 1)%nat) by (rewrite app_length; cbn [length]; lia).
  assert (E : compute_fans ((a :: size) ++ [cin; cout]) =
    (let shape := (a :: size) ++ [cin; cout] in
     let r := product (firstn (length shape - 2) shape) in (nth (length shape - 2) shape 0 * r, nth (length shape - 1) shape 0 * r)%nat)).
  { destruct size as [|b size]; [reflexivity|]. cbn [app]. destruct size; reflexivity. }
  rewrite E. cbv zeta. rewrite L, L1, firstn_app, Nat.sub_diag, firstn_all, firstn_O, app_nil_r, product_entries.
  rewrite !app_nth2 by lia. rewrite Nat.sub_diag. replace (length (a :: size) + 1 - length (a :: size))%nat with 1%nat by lia. cbn [nth]. f_equal; lia.
Qed.

Lemma fans_exist shape : exists fi fo, fans shape fi fo.
Proof.
  destruct shape as [|a [|b l]]; [exists 1%nat, 1%nat; left; auto|exists a, a; right; left; eauto|].
  set (s := a :: b :: l). exists (entries (firstn (length s - 2) s) * nth (length s - 2) s 0)%nat, (entries (firstn (length s - 2) s) * nth (length s - 1) s 0)%nat.
  right. right. exists (firstn (length s - 2) s), (nth (length s - 2) s 0%nat), (nth (length s - 1) s 0%nat). split; [|auto].
  assert (L : (2 <= length s)%nat) by (cbn; lia). clearbody s. rewrite <- (firstn_skipn (length s - 2) s) at 1. f_equal.
  assert (K : length (skipn (length s - 2) s) = 2%nat) by (rewrite skipn_length; lia).
  assert (N : forall i, nth i (skipn (length s - 2) s) 0%nat = nth (length s - 2 + i) s 0%nat).
  { intros i. pose proof (firstn_skipn (length s - 2) s) as FS. apply (f_equal (fun t => nth (length s - 2 + i) t 0%nat)) in FS. cbn beta in FS. rewrite <- FS.
    rewrite app_nth2; rewrite firstn_length, Nat.min_l by lia; [f_equal; lia|lia]. }
  pose proof (N 0%nat) as N0. pose proof (N 1%nat) as N1. replace (length s - 2 + 1)%nat with (length s - 1)%nat in N1 by lia. rewrite Nat.add_0_r in N0.
  rewrite <- N0, <- N1. destruct (skipn _ s) as [|u [|v [|]]]; cbn in K; try lia. reflexivity.
Qed.

Lemma entries_pos l : (forall n, In n l -> 1 <= n)%nat -> (1 <= entries l)%nat.
Proof. induction l as [|a l IH]; intros H; cbn [entries fold_right]; [lia|]. pose proof (H a (or_introl eq_refl)). pose proof (IH (fun n Hn => H n (or_intror Hn))). unfold entries in *. nia. Qed.

Lemma fans_pos shape fi fo : fans shape fi fo -> (forall n, In n shape -> 1 <= n)%nat -> (1 <= fi /\ 1 <= fo)%nat.
Proof.
  intros [(-> & -> & ->)|[(n & -> & -> & ->)|(size & cin & cout & -> & -> & ->)]] H; [lia|specialize (H n (or_introl eq_refl)); lia|].
  assert (1 <= entries size)%nat by (apply entries_pos; intros n Hn; apply H; apply in_or_app; auto).
  pose proof (H cin). pose proof (H cout). rewrite in_app_iff in *. cbn in *. assert (1 <= cin)%nat by tauto. assert (1 <= cout)%nat by tauto. nia.
Qed.

(** * Expectations *)
Lemma has_mean_ext {O} (P : expectation O) f g m : (forall w, f w = g w) -> has_mean P f m -> has_mean P g m.
Proof. intros E [I M]. destruct (mean_ext P f g E I) as [I' M']. split; [exact I'|congruence]. Qed.
Lemma has_mean_plus {O} (P : expectation O) f g a b : has_mean P f a -> has_mean P g b -> has_mean P (fun w => f w + g w) (a + b).
Proof. intros [I M] [I' M']. destruct (mean_plus P f g I I') as [J N]. split; [exact J|congruence]. Qed.
Lemma has_mean_scale {O} (P : expectation O) c f a : has_mean P f a -> has_mean P (fun w => c * f w) (c * a).
Proof. intros [I M]. destruct (mean_scale P c f I) as [J N]. split; [exact J|congruence]. Qed.
Lemma has_mean_sum {O A} (P : expectation O) (f : A -> O -> R) (m : A -> R) (l : list A) (some : has_mean P (fun _ => 0) 0) :
  (forall a, In a l -> has_mean P (f a) (m a)) -> has_mean P (fun w => Rsum (fun a => f a w) l) (Rsum m l).
Proof.
  induction l as [|a l IH]; intros H; [exact some|]. rewrite Rsum_cons.
  apply (has_mean_plus P (f a) (fun w => Rsum (fun a => f a w) l)); [apply H; left; reflexivity|apply IH; intros b Hb; apply H; right; exact Hb].
Qed.
Lemma has_mean_zero {O} (P : expectation O) f m : has_mean P f m -> has_mean P (fun _ => 0) 0.
Proof. intros H. apply (has_mean_ext P (fun w => 0 * f w)); [intros w; ring|]. pose proof (has_mean_scale P 0 f m H) as Z. rewrite Rmult_0_l in Z. exact Z. Qed.

(** * The weights *)
(** The standard deviation of the code. *)
Definition sigma (criterion : string) (fi fo : nat) : R :=
  if criterion =? "glorot" then (1 / INR (fi + fo)) * (1 / INR (fi + fo)) else (1 / INR fi) * (1 / INR fi).

Lemma map2_nth {A B D} (f : A -> B -> D) l1 l2 d1 d2 d k : length l1 = length l2 -> (k < length l1)%nat -> nth k (map2 f l1 l2) d = f (nth k l1 d1) (nth k l2 d2).
Proof.
  revert l2 k. induction l1 as [|a l1 IH]; intros [|b l2] k L K; cbn [length] in *; try lia. destruct k as [|k]; [reflexivity|]. cbn [map2 nth]. apply IH; lia.
Qed.
Lemma map2_len {A B D} (f : A -> B -> D) l1 l2 : length l1 = length l2 -> length (map2 f l1 l2) = length l1.
Proof. revert l2. induction l1 as [|a l1 IH]; intros [|b l2] L; cbn [length map2] in *; try lia. rewrite IH; lia. Qed.

Definition direction (u : R) : C := (cos (u * (PI - - PI) + - PI), sin (u * (PI - - PI) + - PI)).

Lemma draw_ok criterion shape d fi fo : In criterion ["glorot"; "he"] -> fans shape fi fo -> (1 <= fi /\ 1 <= fo)%nat ->
  exists scale, scale * scale = sigma criterion fi fo /\ random_modulus_and_phase criterion shape d = Ok (random_rayleigh scale d, random_uniform (- PI) PI (uniform d)).
Proof.
  intros C F [P1 P2]. unfold random_modulus_and_phase, one_over. rewrite (fans_ok _ _ _ F).
  assert (E1 : Nat.eqb (fi + fo) 0 = false) by (apply Nat.eqb_neq; lia). assert (E2 : Nat.eqb fi 0 = false) by (apply Nat.eqb_neq; lia). rewrite E1, E2.
  destruct C as [<-|[<-|[]]]; eexists; (split; [|reflexivity]); reflexivity.
Qed.

Section Weight.
  Context (keras_names : string -> option keras_initializer) (keras_default : keras_initializer).
  Notation add := (add_complex_weight keras_names keras_default).

  Lemma standard_ok criterion shape d0 d1 fi fo n : In criterion ["glorot"; "he"] -> fans shape fi fo -> (1 <= fi /\ 1 <= fo)%nat ->
    length (normal_x d0) = n -> length (normal_y d0) = n -> length (uniform d0) = n ->
    exists i variables, add (Instance (Standard criterion new_standard)) Float32 shape d0 d1 = Ok (i, variables) /\
      length (complex_weight_value variables) = n /\
      (forall k, (k < n)%nat -> nth k (complex_weight_value variables) C0 =
        Cscale (sigma criterion fi fo * sqrt (nth k (normal_x d0) 0 * nth k (normal_x d0) 0 + nth k (normal_y d0) 0 * nth k (normal_y d0) 0))
               (direction (nth k (uniform d0) 0))) /\
      forall t s e0 e1, add (Instance i) t s e0 e1 = Err GenericException.
  Proof.
    intros C F P Lx Ly Lu. destruct (draw_ok criterion shape d0 fi fo C F P) as (scale & S & D).
    unfold add_complex_weight, get, call_real, draw. cbn [bind counter new_standard Nat.eqb]. rewrite D.
    cbn [bind real_part_initializer next_complex_number new_standard counter Nat.eqb Nat.ltb Nat.leb drawn fst snd variable same_float call_negated_imag draw imag_part_initializer].
    eexists _, _. split; [reflexivity|].
    assert (Lm : length (random_rayleigh scale d0) = n) by (unfold random_rayleigh, random_normal; rewrite map2_len; rewrite !map_length; lia).
    assert (Lp : length (random_uniform (- PI) PI (uniform d0)) = n) by (unfold random_uniform; rewrite map_length; exact Lu).
    assert (Hs : 0 <= sigma criterion fi fo) by (rewrite <- S; nra).
    unfold complex_weight_value, negate_decorator. cbn [fst snd]. rewrite !map_map. split.
    - rewrite map2_len; rewrite ?map_length, ?map2_len; congruence.
    - split.
      + intros k K. rewrite (map2_nth _ _ _ 0 ((fun x => -1 * x * -1) 0)); rewrite ?map_length, ?map2_len; try congruence.
        rewrite (map_nth (fun x => -1 * x * -1)). rewrite !(map2_nth _ _ _ 0 0) by congruence.
        assert (M : nth k (random_rayleigh scale d0) 0 = sigma criterion fi fo * sqrt (nth k (normal_x d0) 0 * nth k (normal_x d0) 0 + nth k (normal_y d0) 0 * nth k (normal_y d0) 0)).
        { unfold random_rayleigh, random_normal. rewrite S. set (g := sigma criterion fi fo) in *.
          rewrite (map2_nth _ _ _ (g * 0) (g * 0)) by (rewrite ?map_length; congruence). rewrite !(map_nth (Rmult g)).
          set (x := nth k (normal_x d0) 0). set (y := nth k (normal_y d0) 0). replace (g * x * (g * x) + g * y * (g * y)) with ((g * g) * (x * x + y * y)) by ring.
          rewrite sqrt_mult by nra. rewrite sqrt_square by exact Hs. reflexivity. }
        assert (U : nth k (random_uniform (- PI) PI (uniform d0)) 0 = nth k (uniform d0) 0 * (PI - - PI) + - PI).
        { unfold random_uniform. rewrite (nth_indep _ 0 ((fun a => a * (PI - - PI) + - PI) 0)) by (rewrite map_length; congruence).
          rewrite (map_nth (fun a => a * (PI - - PI) + - PI)). reflexivity. }
        rewrite M, U. unfold Cscale, direction. cbn [fst snd]. apply C_eq; cbn [Re Im fst snd]; ring.
      + intros t s e0 e1. reflexivity.
  Qed.

  Lemma named name shape t d0 d1 : In name ["complex_glorot"; "complex_he"] ->
    exists criterion, In criterion ["glorot"; "he"] /\ name = ("complex_" ++ criterion)%string /\
      add (Single (RName name)) t shape d0 d1 = add (Instance (Standard criterion new_standard)) t shape d0 d1.
  Proof. intros [<-|[<-|[]]]; [exists "glorot"|exists "he"]; (split; [cbn; auto|split; reflexivity]). Qed.
End Weight.

Lemma norm2_direction a u : Cnorm2 (Cscale a (direction u)) = a * a.
Proof.
  unfold Cnorm2, Cscale, direction. cbn [fst snd]. set (p := u * _ + _). pose proof (sin2_cos2 p) as T. unfold Rsqr in T.
  replace (a * cos p * (a * cos p) + a * sin p * (a * sin p)) with (a * a * (sin p * sin p + cos p * cos p)) by ring. rewrite T. ring.
Qed.

(** * Moments *)
Lemma norm2_sum {A} (a : A -> C) l : Cnorm2 (Csum a l) = Rsum (fun k => Rsum (fun m => Re (Cmult (a k) (Cconj (a m)))) l) l.
Proof.
  change (Cnorm2 (Csum a l)) with (Re (RtoC (Cnorm2 (Csum a l)))). rewrite <- Cmult_conj, Csum_conj, <- Csum_scal_r, Re_Csum.
  apply Rsum_ext. intros k _. rewrite <- Csum_scal, Re_Csum. reflexivity.
Qed.

Lemma Rsum_diagonal (g : nat -> R) l : NoDup l -> Rsum (fun k => Rsum (fun m => if Nat.eqb k m then g k else 0) l) l = Rsum g l.
Proof.
  intros N. apply Rsum_ext. intros k Hk. induction l as [|a l IH]; [destruct Hk|]. inversion_clear N as [|? ? Na Nl]. rewrite Rsum_cons.
  destruct Hk as [->|Hk].
  - rewrite Nat.eqb_refl. rewrite (Rsum_ext _ (fun _ => 0)); [rewrite Rsum_zero; ring|]. intros b Hb.
    destruct (Nat.eqb_spec k b); [subst; contradiction|reflexivity].
  - destruct (Nat.eqb_spec k a); [subst; contradiction|]. rewrite IH by assumption. ring.
Qed.

Lemma output_power {O} (P : expectation O) (W : O -> list C) (n units : nat) (x : list C) (j : nat) (v : R) :
  length x = n -> (1 <= n)%nat -> (j < units)%nat -> (forall k, (k < n * units)%nat -> has_mean P (fun w => Cnorm2 (nth k (W w) C0)) v) -> unrelated P (n * units) W ->
  has_mean P (fun w => Cnorm2 (dense_output units (W w) x j)) (v * Rsum (fun a => Cnorm2 a) x).
Proof.
  intros L N J V U. assert (B : forall k, (k < n)%nat -> (k * units + j < n * units)%nat) by (intros k K; nia).
  assert (Z : has_mean P (fun _ => 0) 0) by (apply (has_mean_zero P _ v (V _ (B 0%nat ltac:(lia))))).
  assert (T : has_mean P (fun w => Rsum (fun k => Rsum (fun m => Re (Cmult (Cmult (nth k x C0) (nth (k * units + j) (W w) C0)) (Cconj (Cmult (nth m x C0) (nth (m * units + j) (W w) C0))))) (range n)) (range n))
    (Rsum (fun k => Rsum (fun m => if Nat.eqb k m then v * Cnorm2 (nth k x C0) else 0) (range n)) (range n))).
  { apply (has_mean_sum P (fun k w => Rsum (fun m => Re (Cmult (Cmult (nth k x C0) (nth (k * units + j) (W w) C0)) (Cconj (Cmult (nth m x C0) (nth (m * units + j) (W w) C0))))) (range n)) (fun k => Rsum (fun m => if Nat.eqb k m then v * Cnorm2 (nth k x C0) else 0) (range n)) (range n) Z).
    intros k K. apply in_seq in K.
    apply (has_mean_sum P (fun m w => Re (Cmult (Cmult (nth k x C0) (nth (k * units + j) (W w) C0)) (Cconj (Cmult (nth m x C0) (nth (m * units + j) (W w) C0))))) (fun m => if Nat.eqb k m then v * Cnorm2 (nth k x C0) else 0) (range n) Z).
    intros m M. apply in_seq in M. set (xx := Cmult (nth k x C0) (Cconj (nth m x C0))).
    apply (has_mean_ext P (fun w => Re xx * Re (Cmult (nth (k * units + j) (W w) C0) (Cconj (nth (m * units + j) (W w) C0)))
                                    + (- Im xx) * Im (Cmult (nth (k * units + j) (W w) C0) (Cconj (nth (m * units + j) (W w) C0))))).
    { intros w. unfold xx, Cmult, Cconj, Re, Im. cbn [fst snd]. ring. }
    destruct (Nat.eqb_spec k m) as [<-|D].
    - apply (has_mean_ext P (fun w => Cnorm2 (nth k x C0) * Cnorm2 (nth (k * units + j) (W w) C0))).
      { intros w. unfold xx, Cnorm2, Cmult, Cconj, Re, Im. cbn [fst snd]. ring. }
      rewrite (Rmult_comm v). apply has_mean_scale, V, B. lia.
    - destruct (U (k * units + j)%nat (m * units + j)%nat) as [U1 U2]; [apply B; lia|apply B; lia|intros E; apply D; nia|].
      replace 0 with (Re xx * 0 + - Im xx * 0) by ring. apply has_mean_plus; apply has_mean_scale; assumption. }
  rewrite Rsum_diagonal in T by apply seq_NoDup. rewrite Rsum_scal in T.
  assert (X : Rsum (fun k => Cnorm2 (nth k x C0)) (range n) = Rsum (fun a => Cnorm2 a) x).
  { rewrite <- (Rsum_map (fun k => nth k x C0) (fun a => Cnorm2 a)). subst n. rewrite (Base.map_nth_range x C0). reflexivity. }
  rewrite X in T. refine (has_mean_ext P _ _ _ _ T). intros w. unfold dense_output. rewrite norm2_sum, L. reflexivity.
Qed.

Lemma weight_moment {O} (P : expectation O) (W : O -> list C) (x y : O -> list R) (u : O -> list R) (g : R) (n k : nat) :
  unit_moments P n x -> unit_moments P n y -> (k < n)%nat ->
  (forall w, nth k (W w) C0 = Cscale (g * sqrt (nth k (x w) 0 * nth k (x w) 0 + nth k (y w) 0 * nth k (y w) 0)) (direction (nth k (u w) 0))) ->
  has_mean P (fun w => Cnorm2 (nth k (W w) C0)) (2 * (g * g)).
Proof.
  intros [_ X] [_ Y] K E. apply (has_mean_ext P (fun w => (g * g) * (nth k (x w) 0 * nth k (x w) 0 + nth k (y w) 0 * nth k (y w) 0))).
  - intros w. rewrite E, norm2_direction. set (t := _ + _). assert (0 <= t) by (unfold t; nra).
    replace (g * sqrt t * (g * sqrt t)) with (g * g * (sqrt t * sqrt t)) by ring. rewrite sqrt_sqrt by assumption. reflexivity.
  - replace (2 * (g * g)) with (g * g * (1 + 1)) by ring. apply has_mean_scale, has_mean_plus; auto.
Qed.

Lemma inv4 m : (1 <= m)%nat -> 2 * (1 / INR m * (1 / INR m) * (1 / INR m * (1 / INR m))) = 2 / INR m ^ 4.
Proof. intros H. assert (0 < INR m) by (apply lt_0_INR; lia). field. lra. Qed.
