(** Proofs about the distribution of whole batches. *)
From Coq Require Import List ZArith Reals Lra Lia Bool Arith.
From Verif Require Import Base Cplx OrderingModel OrderingSpec AutoregressiveModel AutoregressiveSpec AutoregressiveProofs IsingModel ObservableModel ObservableSpec
  ObservableProofs ExactModel ExactSpec ExactProofs ExactFinalProofs MonteCarloModel MonteCarloSpec MonteCarloProofs.
Import ListNotations.
Local Open Scope R_scope.

Lemma mapM_iff {A B} (f : A -> res B) (da : A) (db : B) : forall l r, length r = length l ->
  (mapM f l = Ok r <-> forall k, (k < length l)%nat -> f (nth k l da) = Ok (nth k r db)).
Proof.
  induction l as [|a l IH]; intros r L.
  - destruct r; [|discriminate]. split; [intros _ k Hk; simpl in Hk; lia|reflexivity].
  - destruct r as [|b r]; [discriminate|]. simpl in L. specialize (IH r ltac:(lia)). cbn [mapM]. split.
    + destruct (f a) as [b'|e] eqn:Ea; [|discriminate]. cbn [bind]. destruct (mapM f l) as [r'|e]; [|discriminate]. cbn [bind].
      intros E. injection E as -> ->. intros [|k] Hk; cbn [nth]; [exact Ea|]. apply (proj1 IH eq_refl). simpl in Hk; lia.
    + intros E. pose proof (E 0%nat ltac:(simpl; lia)) as E0. cbn [nth] in E0. rewrite E0. cbn [bind]. rewrite (proj2 IH); [reflexivity|].
      intros k Hk. apply (E (S k)). simpl. lia.
Qed.

Lemma Rprod_nth {A} (f : A -> R) d l : Rprod (fun k => f (nth k l d)) (seq 0 (length l)) = Rprod f l.
Proof.
  induction l as [|a l IH]; [reflexivity|]. cbn [length seq]. rewrite !Rprod_cons. cbn [nth]. f_equal. rewrite <- IH, <- seq_shift.
  generalize (seq 0 (length l)). intros q. induction q as [|x q IHq]; [reflexivity|]. cbn [map]. rewrite !Rprod_cons. cbn [nth]. now rewrite IHq.
Qed.

Lemma autoregressive_batches shape order net B :
  (length shape = 1 \/ length shape = 2)%nat -> ordering_of shape order ->
  autoregressive (volume shape) (map (row_major shape) order) net ->
  (forall s i, length (net s i) = 2%nat) ->
  exists box : list (list Z) -> nat -> nat -> R * R,
    (forall b k i, 0 <= fst (box b k i) /\ snd (box b k i) <= 1) /\
    (forall us b, length us = B -> (forall u, In u us -> unit_list (volume shape) u) -> In b (all_batches (volume shape) B) ->
       (autoregressive_batch shape false (conditional_log_probs net) order us = Ok b <->
        forall k i, (k < B)%nat -> (i < volume shape)%nat -> inside (nth i (nth k us []) 0) (box b k i))) /\
    (forall b, In b (all_batches (volume shape) B) ->
       Rprod (fun k => Rprod (fun i => len (box b k i)) (seq 0 (volume shape))) (seq 0 B) = independent (volume shape) (predictions net) b).
Proof.
  intros HL HO HA HN.
  assert (H1 : norm2 (volume shape) (predictions net) = 1).
  { apply (normalised_wave_function _ (map (row_major shape) order)); auto using ordering_visits. }
  destruct (sampler_boxes shape order net HL HO HA HN) as (box & B1 & B2 & B3).
  exists (fun b k i => box (nth k b []) i). split; [intros; apply B1|]. split.
  - intros us b Lu Hu Hb. apply all_batches_in in Hb. destruct Hb as [Lb Ab]. unfold autoregressive_batch.
    rewrite (mapM_iff _ [] []) by congruence. rewrite Lu. split.
    + intros E k i Hk. apply B2; [apply Hu, nth_In; lia|apply Ab, nth_In; lia|]. now apply E.
    + intros E k Hk. apply B2; [apply Hu, nth_In; lia|apply Ab, nth_In; lia|]. intros i Hi. now apply E.
  - intros b Hb. apply all_batches_in in Hb. destruct Hb as [Lb Ab]. unfold independent. rewrite <- (Rprod_nth _ [] b), Lb.
    apply Rprod_ext. intros k Hk. apply in_seq in Hk. etransitivity; [apply B3, Ab, nth_In; lia|]. unfold probability. rewrite H1. field.
Qed.

Lemma finite_choice {A B} (dec : forall a b : A, {a = b} + {a <> b}) (P : A -> B -> Prop) (d : B) l :
  (forall a, In a l -> exists b, P a b) -> exists f : A -> B, forall a, In a l -> P a (f a).
Proof.
  induction l as [|a l IH]; intros E.
  - exists (fun _ => d). intros a [].
  - destruct IH as (f & Hf); [intros; apply E; now right|]. destruct (E a ltac:(now left)) as (b & Hb).
    exists (fun x => if dec x a then b else f x). intros x [<-|Hx].
    + destruct (dec a a); [assumption|congruence].
    + destruct (dec x a) as [->|]; [assumption|now apply Hf].
Qed.

Lemma exact_batches n H op batch past e lp e' B : (n <= 31)%nat -> operator_represents n H op ->
  good_batch_size n batch -> built n op batch past e -> machine_updated lp e = Ok e' ->
  exists box : list (list Z) -> nat -> R * R,
    (forall b k, In b (all_batches n B) -> (k < B)%nat -> 0 <= fst (box b k) /\ snd (box b k) <= 1) /\
    (forall us b, length us = B -> Forall (fun u => 0 <= u < 1) us -> In b (all_batches n B) ->
       (exact_sampler_next e' us = Ok b <-> forall k, (k < B)%nat -> inside (nth k us 0) (box b k))) /\
    (forall b, In b (all_batches n B) -> Rprod (fun k => len (box b k)) (seq 0 B) = independent n lp b).
Proof.
  intros Hn HO HB HE HM.
  destruct (finite_choice (list_eq_dec Z.eq_dec) (fun s a => 0 <= a /\ a + probability n lp s <= 1 /\
    forall us, Forall (fun u => 0 <= u < 1) us -> exists samples, exact_sampler_next e' us = Ok samples /\ length samples = length us /\
    (forall t, In t samples -> In t (spin_configs n)) /\
    forall k u, nth_error us k = Some u -> (nth_error samples k = Some s <-> a <= u < a + probability n lp s)) 0 (spin_configs n)) as (a & Ha).
  { intros s Hs. exact (exact_sampler_interval n H op batch past e lp e' Hn HO HB HE HM s Hs). }
  exists (fun b k => (a (nth k b []), a (nth k b []) + probability n lp (nth k b []))). split; [|split].
  - intros b k Hb Hk. apply all_batches_in in Hb. destruct Hb as [Lb Ab]. cbn [fst snd].
    destruct (Ha (nth k b []) ltac:(apply Ab, nth_In; lia)) as (A1 & A2 & _). now split.
  - intros us b Lu Fu Hb. apply all_batches_in in Hb. destruct Hb as [Lb Ab]. unfold inside. cbn [fst snd]. split.
    + intros E k Hk. destruct (Ha (nth k b []) ltac:(apply Ab, nth_In; lia)) as (_ & _ & A3). destruct (A3 us Fu) as (smp & E' & _ & _ & I).
      assert (smp = b) by congruence. subst smp. apply (I k); apply nth_error_nth'; lia.
    + intros E. destruct B as [|B'].
      * destruct us; [|discriminate]. destruct b; [|discriminate].
        assert (NE : exists s, In s (spin_configs n)).
        { exists (repeat 1%Z n). clear. unfold spin_configs. induction n as [|m IH]; [now left|]. cbn [strings repeat flat_map].
          apply in_or_app. left. now apply in_map. }
        destruct NE as (s & Hs). destruct (Ha s Hs) as (_ & _ & A3). destruct (A3 [] Fu) as (smp & E' & L & _ & _).
        destruct smp; [exact E'|discriminate].
      * destruct (Ha (nth 0 b []) ltac:(apply Ab, nth_In; lia)) as (_ & _ & A0). destruct (A0 us Fu) as (smp & E' & L & _ & _).
        rewrite E'. f_equal. apply nth_ext with (d := []) (d' := []); [congruence|]. intros k Hk.
        destruct (Ha (nth k b []) ltac:(apply Ab, nth_In; lia)) as (_ & _ & A3). destruct (A3 us Fu) as (smp' & E'' & L' & _ & I).
        assert (smp' = smp) by congruence. subst smp'.
        apply nth_error_nth. apply (I k (nth k us 0)); [apply nth_error_nth'; lia|]. apply E. lia.
  - intros b Hb. apply all_batches_in in Hb. destruct Hb as [Lb Ab]. unfold independent. rewrite <- (Rprod_nth _ [] b), Lb.
    apply Rprod_ext. intros k Hk. unfold len. cbn [fst snd]. ring.
Qed.
