(** Lemmas about the NetKet wrapper. *)
From Coq Require Import List ZArith Reals Lia Lra Bool Arith.
From Verif Require Import Base Cplx LatticeSpec NetketModel.
Import ListNotations.

Lemma is_zero_spec c : is_zero c = true <-> c = C0.
Proof.
  unfold is_zero, C0, RtoC. destruct c as [a b]. cbn [fst snd]. destruct (Req_EM_T a 0), (Req_EM_T b 0); split; intros H;
    try congruence; try (injection H; intros; congruence).
Qed.

Lemma collect_ok g sample : (forall s, In s sample -> reports_itself g s) -> collect g sample = Ok (map g sample).
Proof.
  induction sample as [|s t IH]; intros H; cbn [collect map]; auto.
  destruct (H s (or_introl eq_refl)) as (m & rest & E). rewrite E. cbn [check_first].
  destruct (list_eq_dec Z.eq_dec s s); [|congruence]. cbn [bind]. rewrite IH by (intros; apply H; now right). reflexivity.
Qed.

Lemma collect_bad g sample s : In s sample -> (forall m rest, g s <> (s, m) :: rest) -> exists e, collect g sample = Err e.
Proof.
  induction sample as [|a t IH]; intros Hin H; [destruct Hin|]. cbn [collect].
  destruct (check_first a (g a)) eqn:E; [|cbn [bind]; eauto]. cbn [bind]. destruct Hin as [->|Hin].
  - exfalso. unfold check_first in E. destruct (g s) as [|[c m] r] eqn:G; [discriminate|].
    destruct (list_eq_dec Z.eq_dec c s); [|discriminate]. subst. now apply (H m r).
  - destruct (IH Hin H) as [e ->]. cbn [bind]. eauto.
Qed.

Lemma fold_max_ge l x : In x l -> x <= fold_right Nat.max 0 l.
Proof. induction l as [|a l IH]; cbn [fold_right In]; [tauto|]. intros [->|H]; [|apply IH in H]; lia. Qed.

Lemma map_nth_pad {A} (l : list A) n d : length l <= n -> map (fun k => nth k l d) (range n) = l ++ repeat d (n - length l).
Proof.
  intros H. apply (list_ext_nth d); [rewrite map_length, range_length, app_length, repeat_length; lia|].
  intros i Hi. rewrite map_length, range_length in Hi.
  rewrite nth_map_range by lia.
  destruct (Nat.lt_ge_cases i (length l)).
  - now rewrite app_nth1.
  - rewrite app_nth2, nth_repeat by lia. apply nth_overflow. lia.
Qed.

Lemma map2_diag2 {A B C D} (f : B -> C -> D) (u : A -> B) (v : A -> C) l :
  map2 f (map u l) (map v l) = map (fun a => f (u a) (v a)) l.
Proof. induction l; cbn [map map2]; auto. now rewrite IHl. Qed.

Lemma column_map {A B} (f : nat -> A -> B) (l : list A) ks i d a : nth_error l i = Some a ->
  column i d (map (fun k => map (f k) l) ks) = map (fun k => f k a) ks.
Proof.
  intros H. unfold column. rewrite map_map. apply map_ext. intros k.
  apply nth_error_nth. now apply map_nth_error.
Qed.

Lemma netket_step g W sample : good_batch g sample ->
  exists W' conn mel use, new_netket_find_conn g W sample = Ok (W', (conn, mel, use)) /\
    estimated W <= estimated W' /\ should_calc_unused W' = should_calc_unused W /\
    length conn = estimated W' /\ length mel = estimated W' /\ length use = estimated W' /\
    forall i s, nth_error sample i = Some s ->
      length (g s) <= estimated W' /\
      column i [] conn = map fst (g s) ++ repeat (repeat 0%Z (length s)) (estimated W' - length (g s)) /\
      column i C0 mel = map snd (g s) ++ repeat C0 (estimated W' - length (g s)) /\
      forall k, k < estimated W' ->
        (nth k (column i false use) false = true <->
         k = 0 \/ should_calc_unused W = false \/ nth k (column i C0 mel) C0 <> C0).
Proof.
  intros [Hne Hg]. unfold new_netket_find_conn. rewrite collect_ok by auto. cbn [bind].
  assert (exists m, numpy_max (map (@length _) (map g sample)) = Ok m /\ forall s, In s sample -> length (g s) <= m) as (m & Em & Hm).
  { destruct sample as [|s t]; [congruence|]. eexists. split; [reflexivity|].
    intros x Hx. apply fold_max_ge. rewrite map_map. apply (in_map (fun x => length (g x))). exact Hx. }
  rewrite Em. cbn [bind].
  set (est := Nat.max m (estimated W)).
  match goal with |- context [Ok (?w, (?c, ?ml, ?u))] => exists w, c, ml, u end.
  split; [reflexivity|]. cbn [estimated should_calc_unused].
  split; [lia|]. split; [reflexivity|].
  split; [now rewrite map_length, range_length|]. split; [now rewrite map_length, range_length|].
  split. { rewrite upd_length. destruct (should_calc_unused W); [rewrite !map_length; apply range_length | apply repeat_length]. }
  intros i s Hs. assert (Hin : In s sample) by (eapply nth_error_In; eauto).
  assert (Hl : length (g s) <= est) by (specialize (Hm s Hin); lia).
  split; [exact Hl|].
  assert (Ec : column i [] (map (fun k => map2 (fun z l => nth k (map fst l) z) (map (fun s0 => repeat 0%Z (length s0)) sample) (map g sample)) (range est))
     = map fst (g s) ++ repeat (repeat 0%Z (length s)) (est - length (g s))).
  { rewrite (map_ext _ (fun k => map (fun s0 => nth k (map fst (g s0)) (repeat 0%Z (length s0))) sample)) by (intros k; apply (map2_diag2 (fun z l => nth k (map fst l) z))).
    rewrite (column_map (fun k s0 => nth k (map fst (g s0)) (repeat 0%Z (length s0))) _ _ _ _ _ Hs).
    rewrite map_nth_pad; [now rewrite map_length | rewrite map_length; lia]. }
  assert (Ml : column i C0 (map (fun k => map (fun l => nth k (map snd l) C0) (map g sample)) (range est))
     = map snd (g s) ++ repeat C0 (est - length (g s))).
  { rewrite (map_ext _ (fun k => map (fun s0 => nth k (map snd (g s0)) C0) sample)) by (intros k; apply map_map).
    rewrite (column_map (fun k s0 => nth k (map snd (g s0)) C0) _ _ _ _ _ Hs).
    rewrite map_nth_pad; [now rewrite map_length | rewrite map_length; lia]. }
  split; [exact Ec|]. split; [exact Ml|].
  intros k Hk.
  assert (Hi : i < length sample) by (apply nth_error_Some; congruence).
  set (mel := map (fun k => map (fun l => nth k (map snd l) C0) (map g sample)) (range est)) in *.
  unfold column at 1. rewrite (nth_indep _ false (nth i [] false)) by
    (rewrite map_length, upd_length; destruct (should_calc_unused W); [unfold mel; rewrite !map_length, range_length|rewrite repeat_length]; auto).
  rewrite (map_nth (fun r => nth i r false)).
  destruct k as [|k].
  { split; [auto|]. intros _.
    assert (E : forall l, 0 < length l -> nth 0 (upd l 0 (repeat true (length sample))) [] = repeat true (length sample)).
    { intros [|x l] H; [cbn in H; lia|reflexivity]. }
    rewrite E. { apply repeat_spec with (n := length sample). apply nth_In. now rewrite repeat_length. }
    destruct (should_calc_unused W); [unfold mel; rewrite !map_length, range_length; lia | rewrite repeat_length; lia]. }
  assert (E : forall (l : list (list bool)) v, nth (S k) (upd l 0 v) [] = nth (S k) l []) by (intros [|x l] v; reflexivity).
  rewrite E. destruct (should_calc_unused W).
  - assert (N : nth i (nth (S k) (map (map (fun c => negb (is_zero c))) mel) []) false = negb (is_zero (nth (S k) (column i C0 mel) C0))).
    { change (@nil bool) with (map (fun c => negb (is_zero c)) []) at 1. rewrite map_nth.
      unfold column. rewrite (nth_indep _ C0 (nth i [] C0)) by (unfold mel; rewrite !map_length, range_length; auto).
      rewrite (map_nth (fun r => nth i r C0)).
      assert (Lr : length (nth (S k) mel []) = length sample).
      { unfold mel. rewrite nth_map_range by auto. now rewrite !map_length. }
      rewrite (nth_indep _ false (negb (is_zero C0))) by (rewrite map_length; lia).
      now rewrite (map_nth (fun c => negb (is_zero c))). }
    rewrite N. rewrite negb_true_iff. rewrite <- not_true_iff_false, is_zero_spec. intuition (try discriminate).
  - split; [auto|]. intros _.
    assert (nth (S k) (repeat (repeat true (length sample)) est) [] = repeat true (length sample)) as ->.
    { apply repeat_spec with (n := est). apply nth_In. now rewrite repeat_length. }
    apply repeat_spec with (n := length sample). apply nth_In. now rewrite repeat_length.
Qed.

Lemma netket_history g batches : (forall b, In b batches -> good_batch g b) -> forall W,
  exists W', netket_calls g W batches = Ok W' /\ estimated W <= estimated W' /\ should_calc_unused W' = should_calc_unused W.
Proof.
  induction batches as [|b t IH]; intros H W; cbn [netket_calls]; eauto.
  destruct (netket_step g W b) as (W1 & c & m & u & E & L & S & _); [apply H; now left|].
  rewrite E. cbn [bind fst]. destruct (IH (fun x Hx => H x (or_intror Hx)) W1) as (W' & E' & L' & S').
  exists W'. split; [auto|]. split; [lia|congruence].
Qed.

Lemma netket_rows g W batches sample : (forall b, In b batches -> good_batch g b) -> good_batch g sample ->
  exists W1 W2 conn mel use,
    netket_calls g W batches = Ok W1 /\
    new_netket_find_conn g W1 sample = Ok (W2, (conn, mel, use)) /\
    estimated W <= estimated W1 <= estimated W2 /\
    length conn = estimated W2 /\ length mel = estimated W2 /\ length use = estimated W2 /\
    forall i s, nth_error sample i = Some s ->
      nth 0 (column i [] conn) [] = s /\
      length (g s) <= estimated W2 /\
      column i [] conn = map fst (g s) ++ repeat (repeat 0%Z (length s)) (estimated W2 - length (g s)) /\
      column i C0 mel = map snd (g s) ++ repeat C0 (estimated W2 - length (g s)) /\
      forall k, k < estimated W2 ->
        (nth k (column i false use) false = true <->
         k = 0 \/ should_calc_unused W = false \/ nth k (column i C0 mel) C0 <> C0).
Proof.
  intros HB HS. destruct (netket_history g batches HB W) as (W1 & E1 & L1 & S1).
  destruct (netket_step g W1 sample HS) as (W2 & c & m & u & E2 & L2 & S2 & A & B & D & H).
  exists W1, W2, c, m, u. do 2 (split; [auto|]). split; [lia|]. do 3 (split; [auto|]).
  intros i s Hs. destruct (H i s Hs) as (H1 & H2 & H3 & H4). rewrite S1 in H4.
  split; [|auto]. rewrite H2. destruct HS as [_ HS]. destruct (HS s (nth_error_In _ _ Hs)) as (x & r & ->). reflexivity.
Qed.

(** Any linear functional of the connections is unchanged by the padding and by dropping unused entries. *)
Lemma Csum_range_app {A} (f : A -> C) l d : Csum (fun k => f (nth k l d)) (range (length l)) = Csum f l.
Proof. rewrite <- (map_nth_range l d) at 2. now rewrite Csum_map. Qed.

Lemma netket_equivalent g W sample : good_batch g sample ->
  exists W' conn mel use, new_netket_find_conn g W sample = Ok (W', (conn, mel, use)) /\
    forall i s, nth_error sample i = Some s -> forall psi : list Z -> C,
      Csum (fun k => if nth k (column i false use) false
                     then Cmult (nth k (column i C0 mel) C0) (psi (nth k (column i [] conn) [])) else C0)
        (seq 0 (length conn)) =
      Csum (fun cm => Cmult (snd cm) (psi (fst cm))) (g s).
Proof.
  intros HS. destruct (netket_step g W sample HS) as (W' & conn & mel & use & E & _ & _ & Lc & Lm & Lu & H).
  exists W', conn, mel, use. split; [exact E|]. intros i s Hs psi.
  destruct (H i s Hs) as (H1 & H2 & H3 & H4).
  set (cs := column i [] conn) in *. set (ms := column i C0 mel) in *.
  rewrite (Csum_ext _ (fun k => Cmult (nth k ms C0) (psi (nth k cs [])))).
  2: { intros k Hk. apply in_seq in Hk. destruct (nth k (column i false use) false) eqn:U; [reflexivity|].
       destruct (H4 k ltac:(lia)) as [_ H4']. 
       assert (Z0 : nth k ms C0 = C0).
       { destruct (is_zero (nth k ms C0)) eqn:Z; [now apply is_zero_spec|].
         exfalso. assert (true = false); [|discriminate]. rewrite <- U. symmetry. apply H4'. right. right. intros Q. apply is_zero_spec in Q. congruence. }
       rewrite Z0. csolve. }
  rewrite Lc.
  assert (D : estimated W' = length (g s) + (estimated W' - length (g s))) by lia.
  rewrite D, seq_app, Csum_app. cbn [Nat.add].
  rewrite (Csum_ext _ (fun _ => C0) (seq (length (g s)) _)).
  2: { intros k Hk. apply in_seq in Hk. rewrite H3, app_nth2 by (rewrite map_length; lia). rewrite nth_repeat. csolve. }
  rewrite Csum_zero by auto.
  rewrite (Csum_ext _ (fun k => Cmult (snd (nth k (g s) ([], C0))) (psi (fst (nth k (g s) ([], C0)))))).
  2: { intros k Hk. apply in_seq in Hk. rewrite H3, H2, !app_nth1 by (rewrite map_length; lia).
       pose proof (map_nth snd (g s) (@nil Z, C0) k) as Q1. pose proof (map_nth fst (g s) (@nil Z, C0) k) as Q2.
       cbn [fst snd] in Q1, Q2. now rewrite Q1, Q2. }
  change (seq 0 (length (g s))) with (range (length (g s))).
  rewrite (Csum_range_app (fun cm => Cmult (snd cm) (psi (fst cm))) (g s) ([], C0)). csolve.
Qed.

Lemma netket_bad g W sample s : In s sample -> (forall m rest, g s <> (s, m) :: rest) ->
  exists e, new_netket_find_conn g W sample = Err e.
Proof.
  intros Hin H. unfold new_netket_find_conn. destruct (collect_bad g sample s Hin H) as [e ->]. cbn [bind]. eauto.
Qed.

Lemma netket_old {A} (g : list Z -> A * A * A) s t : old_netket_find_conn g (s :: t) = Err ValueError.
Proof. cbn [old_netket_find_conn]. destruct (g s) as [[a b] c]. reflexivity. Qed.

Lemma fold_max_le l n : (forall x, In x l -> x <= n) -> fold_right Nat.max 0 l <= n.
Proof. induction l as [|a l IH]; cbn [fold_right In]; intros H; [lia|]. pose proof (H a (or_introl eq_refl)). assert (fold_right Nat.max 0 l <= n) by (apply IH; auto). lia. Qed.
Lemma find_conn_bound g W sample W' r n : good_batch g sample -> new_netket_find_conn g W sample = Ok (W', r) ->
  estimated W <= n -> (forall s, In s sample -> length (g s) <= n) -> estimated W' <= n.
Proof.
  intros [Hne Hg] E Hn Hs. unfold new_netket_find_conn in E. rewrite collect_ok in E by auto. cbn [bind] in E.
  destruct (numpy_max _) as [m|e] eqn:M; [|discriminate]. cbn [bind] in E. injection E as <- _. cbn [estimated].
  assert (m <= n); [|lia]. unfold numpy_max in M. destruct (map (@length _) (map g sample)) eqn:L; [discriminate|]. injection M as <-. change (fold_right Nat.max 0 (n0 :: l) <= n). rewrite <- L.
  apply fold_max_le. intros x Hx. apply in_map_iff in Hx. destruct Hx as (y & <- & Hy). apply in_map_iff in Hy. destruct Hy as (s & <- & Hin). auto.
Qed.
Lemma calls_bound g batches n : (forall b, In b batches -> good_batch g b) -> (forall b s, In b batches -> In s b -> length (g s) <= n) -> forall W W',
  netket_calls g W batches = Ok W' -> estimated W <= n -> estimated W' <= n.
Proof.
  induction batches as [|b t IH]; intros Hb Hs W W' E Hn; cbn [netket_calls] in E; [injection E as <-; exact Hn|].
  destruct (new_netket_find_conn g W b) as [[W1 r]|e] eqn:E1; [|discriminate]. cbn [bind fst] in E.
  apply (IH (fun b H => Hb b (or_intror H)) (fun b s H => Hs b s (or_intror H)) W1); [exact E|].
  apply (find_conn_bound g W b W1 r); auto; [apply Hb; now left|]. intros s H. apply (Hs b); [now left|exact H].
Qed.
Lemma netket_from_init g r max_conn unused batches sample :
  (forall b, In b batches -> good_batch g b) -> good_batch g sample ->
  exists W1 W2 conn mel use,
    netket_calls g (netket_init g r max_conn unused) batches = Ok W1 /\
    new_netket_find_conn g W1 sample = Ok (W2, (conn, mel, use)) /\
    (forall n, estimated W2 <= n <-> match max_conn with Some m => m | None => length (g r) end <= n /\
       forall b s, In b (batches ++ [sample]) -> In s b -> length (g s) <= n) /\
    forall i s k, nth_error sample i = Some s -> k < estimated W2 ->
      (nth k (column i false use) false = true <->
       k = 0 \/ unused = Some false \/ (unused = None /\ max_conn = None) \/ nth k (column i C0 mel) C0 <> C0).
Proof.
  intros Hb Hs. set (W := netket_init g r max_conn unused).
  destruct (netket_rows g W batches sample Hb Hs) as (W1 & W2 & conn & mel & use & E1 & E2 & L & _ & _ & _ & R).
  exists W1, W2, conn, mel, use. split; [exact E1|]. split; [exact E2|].
  assert (I : estimated W = match max_conn with Some m => m | None => length (g r) end) by (unfold W, netket_init; destruct max_conn; reflexivity).
  split.
  - intros n. rewrite <- I. split.
    + intros H. split; [lia|]. intros b s Hin Hs'. apply in_app_or in Hin. destruct Hin as [Hin|[<-|[]]].
      * apply in_split in Hin. destruct Hin as (l1 & l2 & ->).
        assert (A : forall bs bs' W0 W3, netket_calls g W0 (bs ++ bs') = Ok W3 -> exists W', netket_calls g W0 bs = Ok W' /\ netket_calls g W' bs' = Ok W3).
        { induction bs as [|x bs IH]; intros bs' W0 W3 E; [exists W0; split; [reflexivity|exact E]|]. cbn [app netket_calls] in *.
          destruct (new_netket_find_conn g W0 x) as [q|e]; [|discriminate]. cbn [bind] in *. apply IH. exact E. }
        destruct (A _ _ _ _ E1) as (Wa & _ & Eb). cbn [netket_calls] in Eb.
        destruct (netket_step g Wa b) as (Wb & c & m & u & Ec & _ & _ & _ & _ & _ & Rb); [apply Hb; apply in_elt|].
        rewrite Ec in Eb. cbn [bind fst] in Eb.
        destruct (netket_history g l2 (fun b' H' => Hb b' ltac:(apply in_or_app; right; now right)) Wb) as (Wc & Ed & Hc & _).
        rewrite Ed in Eb. injection Eb as ->. apply In_nth_error in Hs'. destruct Hs' as (i & Hi). destruct (Rb i s Hi) as [Hl _]. lia.
      * apply In_nth_error in Hs'. destruct Hs' as (i & Hi). destruct (R i s Hi) as (_ & Hl & _). lia.
    + intros [H1 H2]. apply (find_conn_bound g W1 sample W2 (conn, mel, use)); auto.
      * apply (calls_bound g batches n Hb) with (W := W); auto. intros b s Hin. apply H2. apply in_or_app. now left.
      * intros s. apply H2. apply in_or_app. right. now left.
  - intros i s k Hi Hk. destruct (R i s Hi) as (_ & _ & _ & _ & F). rewrite (F k Hk). unfold W, netket_init.
    destruct max_conn as [m|], unused as [[|]|]; cbn [should_calc_unused]; intuition (try discriminate; auto).
Qed.
