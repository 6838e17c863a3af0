(** Proofs about the topological sort, the dependency graph and the fast sampler. *)
From Coq Require Import List ZArith Arith Bool Lia Relations Permutation.
From Coq Require Import Reals.
From Verif Require Import Base OrderingModel OrderingSpec OrderingProofs TensorModel TopologyModel TopologySpec
  TopologyProofs Cplx AutoregressiveModel AutoregressiveSpec AutoregressiveProofs MachinesSpec MachinesProofs
  GraphModel GraphSpec.
Local Open Scope nat_scope.
Import ListNotations.

(** * Kahn's algorithm *)
Section Kahn.
Context {A : Type} (dec : eq_dec A).

Definition targets (v : A) (es : list (A * A)) : nat :=
  length (filter (fun e => if dec (snd e) v then true else false) es).

Lemma targets_cons v e es : targets v (e :: es) = (if dec (snd e) v then 1 else 0) + targets v es.
Proof. unfold targets. cbn [filter]. destruct (dec (snd e) v); reflexivity. Qed.
Lemma targets_app v a b : targets v (a ++ b) = targets v a + targets v b.
Proof. unfold targets. rewrite filter_app, app_length. reflexivity. Qed.
Lemma targets_pos v es : 0 < targets v es <-> exists u, In (u, v) es.
Proof.
  induction es as [|[a b] es IH].
  - cbn. split; [lia | intros [u []]].
  - rewrite targets_cons. cbn [snd]. destruct (dec b v) as [->|n].
    + split; [|lia]. intros _. exists a. now left.
    + cbn [Nat.add]. rewrite IH. split; intros [u H]; exists u; [now right|]. destruct H as [E|H]; [|exact H].
      injection E; congruence.
Qed.
Lemma targets_perm v a b : Permutation a b -> targets v a = targets v b.
Proof. induction 1; rewrite ?targets_cons; try lia; congruence. Qed.

Lemma deg_get_in (m : list (A * nat)) v d : deg_get dec m v = Some d -> In (v, d) m.
Proof.
  induction m as [|[k x] m IH]; cbn; [discriminate|]. destruct (dec k v) as [->|]; [intros E; injection E as ->; now left|].
  intros E. right. auto.
Qed.
Lemma deg_get_some (m : list (A * nat)) v : In v (map fst m) -> exists d, deg_get dec m v = Some d.
Proof.
  induction m as [|[k x] m IH]; cbn; [intros []|]. destruct (dec k v); [eauto|]. intros [E|H]; [contradiction|auto].
Qed.
Lemma deg_set_keys (m : list (A * nat)) v d : map fst (deg_set dec m v d) = map fst m.
Proof. induction m as [|[k x] m IH]; cbn; [reflexivity|]. destruct (dec k v); cbn; [reflexivity|]. now rewrite IH. Qed.
Lemma deg_set_in (m : list (A * nat)) v d w x : NoDup (map fst m) -> In (w, x) (deg_set dec m v d) ->
  (w = v /\ x = d) \/ (w <> v /\ In (w, x) m).
Proof.
  induction m as [|[k y] m IH]; cbn; [intros _ []|]. intros ND H. inversion ND as [|? ? NI ND']; subst.
  destruct (dec k v) as [->|NE].
  - destruct H as [E|H]; [injection E as -> ->; now left|]. right. split; [|now right].
    intros ->. apply NI. apply in_map_iff. exists (v, x). auto.
  - destruct H as [E|H].
    + injection E as -> ->. right. split; [auto | now left].
    + destruct (IH ND' H) as [?|[? ?]]; [now left | right; split; auto].
Qed.
Lemma deg_del_perm (m : list (A * nat)) v : In v (map fst m) -> Permutation (map fst m) (v :: map fst (deg_del dec m v)).
Proof.
  induction m as [|[k x] m IH]; cbn; [intros []|]. destruct (dec k v) as [->|NE]; [reflexivity|].
  intros [E|H]; [contradiction|]. cbn. rewrite (IH H) at 1. apply perm_swap.
Qed.
Lemma deg_del_in (m : list (A * nat)) v w x : NoDup (map fst m) -> In (w, x) (deg_del dec m v) -> w <> v /\ In (w, x) m.
Proof.
  induction m as [|[k y] m IH]; cbn; [intros _ []|]. intros ND H. inversion ND as [|? ? NI ND']; subst.
  destruct (dec k v) as [->|NE].
  - split; [|now right]. intros ->. apply NI. apply in_map_iff. exists (v, x). auto.
  - destruct H as [E|H]; [injection E as -> ->; split; [auto|now left]|]. destruct (IH ND' H). split; auto.
Qed.

(** The state: [es] are the edges not yet removed. *)
Record invariant (G : digraph A) (es : list (A * A)) (m : list (A * nat)) (zero done : list A) : Prop := {
  inv_perm : Permutation (done ++ zero ++ map fst m) (nodes G);
  inv_deg : forall v d, In (v, d) m -> d = targets v es /\ 0 < d;
  inv_zero : forall v, In v (done ++ zero) -> targets v es = 0
}.

Lemma inv_nodup_keys G es m zero done : NoDup (nodes G) -> invariant G es m zero done -> NoDup (map fst m).
Proof.
  intros ND I. eapply Permutation_NoDup in ND; [|symmetry; apply (inv_perm _ _ _ _ _ I)].
  clear - ND. induction done as [|a done IH]; cbn in ND; [|inversion ND; auto].
  clear - ND. induction zero as [|a zero IH]; cbn in ND; [exact ND|inversion ND; auto].
Qed.

Lemma visit_children_ok G n rest (done : list A) : NoDup (nodes G) ->
  forall cs m zero, (forall c, In c cs -> In c (nodes G)) ->
  invariant G (map (pair n) cs ++ rest) m zero done ->
  exists m' zero', visit_children dec cs m zero = Ok (m', zero') /\ invariant G rest m' zero' done.
Proof.
  intros ND. induction cs as [|c cs IH]; intros m zero HC I; cbn [visit_children map app].
  - exists m, zero. auto.
  - assert (Hpos : 0 < targets c (map (pair n) (c :: cs) ++ rest)).
    { apply targets_pos. exists n. cbn. now left. }
    assert (Hkey : In c (map fst m)).
    { assert (Hin : In c (done ++ zero ++ map fst m)).
      { eapply Permutation_in; [symmetry; apply (inv_perm _ _ _ _ _ I)|]. apply HC. now left. }
      rewrite app_assoc in Hin. apply in_app_or in Hin. destruct Hin as [H|H]; [|exact H].
      apply (inv_zero _ _ _ _ _ I) in H. lia. }
    pose proof (inv_nodup_keys _ _ _ _ _ ND I) as NDk.
    destruct (deg_get_some m c Hkey) as [d Hd]. rewrite Hd. apply deg_get_in in Hd.
    destruct (inv_deg _ _ _ _ _ I _ _ Hd) as [Ed _].
    assert (Ec : forall v, targets v (map (pair n) (c :: cs) ++ rest) =
                 (if dec c v then 1 else 0) + targets v (map (pair n) cs ++ rest)).
    { intros v. cbn [map app]. rewrite targets_cons. reflexivity. }
    assert (HC' : forall x, In x cs -> In x (nodes G)) by (intros x Hx; apply HC; now right).
    pose proof (Ec c) as Ecc. destruct (dec c c) as [_|N]; [|now contradiction N].
    destruct (Nat.eqb_spec (d - 1) 0) as [E0|E0].
    + apply IH; [exact HC'|]. constructor.
      * pose proof (inv_perm _ _ _ _ _ I) as P. rewrite <- P. apply Permutation_app_head.
        change ((c :: zero) ++ map fst (deg_del dec m c)) with (c :: zero ++ map fst (deg_del dec m c)).
        rewrite (deg_del_perm m c Hkey). apply Permutation_cons_app. reflexivity.
      * intros v x H. apply deg_del_in in H; [|exact NDk]. destruct H as [NE H].
        destruct (inv_deg _ _ _ _ _ I _ _ H) as [E1 E2]. rewrite Ec in E1.
        destruct (dec c v) as [->|_]; [contradiction|]. split; [exact E1|exact E2].
      * intros v H. apply in_app_or in H.
        assert (H' : v = c \/ In v (done ++ zero)).
        { destruct H as [H|[H|H]]; [right; apply in_or_app; now left | now left | right; apply in_or_app; now right]. }
        destruct H' as [->|H']; [lia|]. apply (inv_zero _ _ _ _ _ I) in H'. rewrite Ec in H'. lia.
    + apply IH; [exact HC'|]. constructor.
      * rewrite deg_set_keys. apply (inv_perm _ _ _ _ _ I).
      * intros v x H. apply deg_set_in in H; [|exact NDk]. destruct H as [[-> ->]|[NE H]].
        -- split; lia.
        -- destruct (inv_deg _ _ _ _ _ I _ _ H) as [E1 E2]. rewrite Ec in E1.
           destruct (dec c v) as [->|_]; [contradiction|]. split; [exact E1|exact E2].
      * intros v H. apply (inv_zero _ _ _ _ _ I) in H. rewrite Ec in H. lia.
Qed.

(** The edges whose source is not done. *)
Definition live (G : digraph A) (done : list A) : list (A * A) :=
  filter (fun e => negb (mem dec (fst e) done)) (edges G).

Lemma mem_spec a (l : list A) : mem dec a l = true <-> In a l.
Proof. unfold mem. destruct (in_dec dec a l); split; auto; discriminate. Qed.

Lemma live_split G done n : ~ In n done ->
  Permutation (live G done) (map (pair n) (children dec G n) ++ live G (n :: done)).
Proof.
  intros Hn. unfold live, children. induction (edges G) as [|[a b] es IH]; cbn [filter map]; [reflexivity|].
  cbn [fst snd]. destruct (dec a n) as [->|NE].
  - replace (mem dec n done) with false.
    2:{ symmetry. destruct (mem dec n done) eqn:E; [|reflexivity]. apply mem_spec in E. contradiction. }
    replace (mem dec n (n :: done)) with true by (symmetry; apply mem_spec; now left).
    cbn [negb map snd app]. constructor. exact IH.
  - assert (E : mem dec a (n :: done) = mem dec a done).
    { destruct (mem dec a done) eqn:E.
      - apply mem_spec. right. now apply mem_spec.
      - destruct (mem dec a (n :: done)) eqn:E'; [|reflexivity]. apply mem_spec in E'. destruct E' as [->|H]; [contradiction|].
        apply mem_spec in H. congruence. }
    rewrite E. destruct (mem dec a done); cbn [negb].
    + exact IH.
    + rewrite IH at 1. apply Permutation_cons_app. reflexivity.
Qed.

Lemma invariant_perm G es es' m zero done : Permutation es es' -> invariant G es m zero done -> invariant G es' m zero done.
Proof.
  intros P [I1 I2 I3]. constructor; auto.
  - intros v d H. rewrite <- (targets_perm v _ _ P). auto.
  - intros v H. rewrite <- (targets_perm v _ _ P). auto.
Qed.

(** What the rest of the loop yields. *)
Definition sorted_rest (G : digraph A) (done rest : list A) : Prop :=
  Permutation (done ++ rest) (nodes G) /\
  forall before v after, rest = before ++ v :: after -> forall u, In (u, v) (edges G) -> In u (done ++ before).

Lemma cycle_of_predecessors (R : A -> A -> Prop) (ks : list A) : ks <> [] ->
  (forall v, In v ks -> exists u, In u ks /\ R u v) -> exists v, clos_trans A R v v.
Proof.
  intros NE H. destruct ks as [|k0 ks0] eqn:EK; [contradiction|]. rewrite <- EK in *. clear NE.
  (* a backward walk of any length *)
  assert (W : forall n, exists walk, length walk = S n /\ (forall x, In x walk -> In x ks) /\
            forall a v b w c, walk = a ++ v :: b ++ w :: c -> clos_trans A R v w).
  { induction n as [|n (walk & L & I & C)].
    - exists [k0]. split; [reflexivity|]. split; [intros x [<-|[]]; rewrite EK; now left|].
      intros a v b w c E. apply (f_equal (@length A)) in E. rewrite !app_length in E. cbn in E. rewrite !app_length in E.
      cbn in E. lia.
    - destruct walk as [|h walk]; [discriminate|]. destruct (H h) as (u & Hu & Huh); [apply I; now left|].
      exists (u :: h :: walk). split; [cbn in *; lia|]. split; [intros x [<-|Hx]; auto|].
      intros a v b w c E. destruct a as [|a0 a]; cbn in E; injection E as E1 E2.
      + subst v. destruct b as [|b0 b]; cbn in E2; injection E2 as E2 E3; subst.
        * now constructor.
        * apply t_trans with b0; [now constructor|]. apply (C [] b0 b w c). reflexivity.
      + subst a0. apply (C a v b w c). exact E2. }
  destruct (W (length ks)) as (walk & L & I & C).
  assert (ND : ~ NoDup walk).
  { intros ND. pose proof (NoDup_incl_length ND I). lia. }
  assert (D : exists a v b c, walk = a ++ v :: b ++ v :: c).
  { clear - ND dec. induction walk as [|h walk IH]; [now contradiction ND; constructor|].
    destruct (in_dec dec h walk) as [Hin|Hout].
    - apply in_split in Hin. destruct Hin as (b & c & ->). exists [], h, b, c. reflexivity.
    - destruct IH as (a & v & b & c & ->); [intros ND'; apply ND; now constructor|]. exists (h :: a), v, b, c. reflexivity. }
  destruct D as (a & v & b & c & ->). exists v. apply (C a v b v c). reflexivity.
Qed.

Lemma sort_loop_ok G : NoDup (nodes G) -> (forall u v, In (u, v) (edges G) -> In u (nodes G) /\ In v (nodes G)) ->
  forall fuel m zero done, length (nodes G) <= length done + fuel ->
  invariant G (live G done) m zero done ->
  match sort_loop dec G fuel m zero with
  | Ok rest => sorted_rest G done rest
  | Err NetworkXUnfeasible => has_cycle (edges G)
  | Err _ => False
  end.
Proof.
  intros ND HE fuel. induction fuel as [|fuel IH]; intros m zero done HL I.
  - assert (HP := Permutation_length (inv_perm _ _ _ _ _ I)). rewrite !app_length in HP.
    destruct zero as [|z zero]; [|cbn in HP; lia]. destruct m as [|p m]; [|cbn in HP; lia]. cbn [sort_loop].
    split.
    + pose proof (inv_perm _ _ _ _ _ I) as P. cbn in P. exact P.
    + intros before v after E. destruct before; discriminate.
  - destruct zero as [|n zero]; cbn [sort_loop].
    + destruct m as [|p m].
      * split.
        -- pose proof (inv_perm _ _ _ _ _ I) as P. cbn in P. exact P.
        -- intros before v after E. destruct before; discriminate.
      * apply (cycle_of_predecessors _ (map fst (p :: m))); [discriminate|].
        intros v Hv. apply in_map_iff in Hv. destruct Hv as ([v' d] & <- & Hv). cbn [fst].
        destruct (inv_deg _ _ _ _ _ I _ _ Hv) as [E P]. rewrite E in P. apply targets_pos in P. destruct P as [u Hu].
        unfold live in Hu. apply filter_In in Hu. destruct Hu as [Hu Hd]. cbn [fst] in Hd.
        exists u. split; [|exact Hu].
        assert (Hin : In u (done ++ [] ++ map fst (p :: m))).
        { eapply Permutation_in; [symmetry; apply (inv_perm _ _ _ _ _ I)|]. apply (HE _ _ Hu). }
        apply in_app_or in Hin. destruct Hin as [Hin|Hin]; [|exact Hin].
        apply mem_spec in Hin. rewrite Hin in Hd. discriminate.
    + pose proof (inv_perm _ _ _ _ _ I) as P.
      assert (ND' : NoDup (done ++ n :: zero ++ map fst m)) by (eapply Permutation_NoDup; [symmetry; exact P|exact ND]).
      assert (Hn : ~ In n done).
      { intros H. apply NoDup_remove_2 in ND'. apply ND'. apply in_or_app. now left. }
      assert (Hc : forall c, In c (children dec G n) -> In c (nodes G)).
      { intros c Hc. unfold children in Hc. apply in_map_iff in Hc. destruct Hc as ([a b] & <- & Hc).
        apply filter_In in Hc. destruct Hc as [Hc _]. apply (HE _ _ Hc). }
      assert (I0 : invariant G (map (pair n) (children dec G n) ++ live G (n :: done)) m zero (n :: done)).
      { destruct I as [I1 I2 I3]. constructor.
        - rewrite <- I1. cbn [app]. apply Permutation_cons_app. reflexivity.
        - intros v d H. rewrite <- (targets_perm v _ _ (live_split G done n Hn)). auto.
        - intros v H. rewrite <- (targets_perm v _ _ (live_split G done n Hn)). apply I3.
          cbn [app] in H. apply in_or_app. destruct H as [->|H]; [right; now left|].
          apply in_app_or in H. destruct H as [H|H]; [now left|right; now right]. }
      destruct (visit_children_ok G n (live G (n :: done)) (n :: done) ND _ _ _ Hc I0) as (m' & zero' & -> & I').
      cbn [bind fst snd].
      specialize (IH m' zero' (n :: done)). 
      assert (HL' : length (nodes G) <= length (n :: done) + fuel) by (cbn [length]; lia).
      specialize (IH HL' I'). destruct (sort_loop dec G fuel m' zero') as [rest|e]; cbn [bind]; [|exact IH].
      destruct IH as [P1 P2]. split.
      * rewrite <- P1. symmetry. cbn [app]. apply Permutation_cons_app. reflexivity.
      * intros before v after E u Hu. destruct before as [|b before]; cbn in E; injection E as E1 E2.
        -- subst v. rewrite app_nil_r.
           assert (T0 : targets n (live G done) = 0) by (apply (inv_zero _ _ _ _ _ I); apply in_or_app; right; now left).
           destruct (in_dec dec u done) as [H|H]; [exact H|].
           assert (0 < targets n (live G done)); [|lia]. apply targets_pos. exists u. unfold live. apply filter_In.
           split; [exact Hu|]. cbn [fst]. destruct (mem dec u done) eqn:E; [|reflexivity]. apply mem_spec in E. contradiction.
        -- subst b. specialize (P2 before v after E2 u Hu). cbn [app] in P2. apply in_or_app.
           destruct P2 as [->|P2]; [right; now left|]. apply in_app_or in P2.
           destruct P2 as [P2|P2]; [now left | right; now right].
Qed.

Lemma filter_split_perm (f : A -> nat) (l : list A) :
  Permutation (rev (filter (fun v => f v =? 0) l) ++ map fst (filter (fun vd => 0 <? snd vd) (map (fun v => (v, f v)) l))) l.
Proof.
  rewrite <- Permutation_rev. induction l as [|a l IH]; cbn [filter map]; [constructor|]. cbn [snd].
  destruct (Nat.eqb_spec (f a) 0) as [E|E], (Nat.ltb_spec 0 (f a)) as [F|F]; try lia; cbn [app map fst].
  - constructor. exact IH.
  - symmetry. apply Permutation_cons_app. symmetry. exact IH.
Qed.

Lemma list_topological_sort_result (G : digraph A) : proper_graph (nodes G) (edges G) ->
  match list_topological_sort dec G with
  | Ok order => topological_order (nodes G) (edges G) order
  | Err NetworkXUnfeasible => has_cycle (edges G)
  | Err _ => False
  end.
Proof.
  intros (ND & _ & HE). unfold list_topological_sort.
  match goal with |- context [sort_loop dec G _ ?m ?z] => set (m0 := m); set (z0 := z) end.
  assert (HL : live G [] = edges G).
  { clear. unfold live. induction (edges G) as [|e es IH]; cbn [filter]; [reflexivity|].
    replace (mem dec (fst e) []) with false by reflexivity. cbn [negb]. now rewrite IH. }
  assert (I : invariant G (live G []) m0 z0 []).
  { rewrite HL. constructor.
    - cbn [app]. unfold m0, z0. apply (filter_split_perm (in_degree dec G)).
    - intros v d H. unfold m0 in H. apply filter_In in H. destruct H as [H P]. cbn [snd] in P. apply Nat.ltb_lt in P.
      apply in_map_iff in H. destruct H as (w & E & _). injection E as <- <-. split; [reflexivity|exact P].
    - intros v H. cbn [app] in H. unfold z0 in H. rewrite <- in_rev in H. apply filter_In in H. destruct H as [_ H].
      apply Nat.eqb_eq in H. exact H. }
  pose proof (sort_loop_ok G ND HE (length (nodes G)) m0 z0 [] (le_n _) I) as H.
  destruct (sort_loop dec G (length (nodes G)) m0 z0) as [order|e]; [|exact H].
  destruct H as [P1 P2]. cbn [app] in P1, P2. split; [eapply Permutation_NoDup; [symmetry; exact P1|exact ND]|].
  split; [|exact P2]. intros v. split; intros H; [|symmetry in P1]; eapply Permutation_in; eauto.
Qed.

Lemma topological_no_cycle ns es (order : list A) : (forall u v, In (u, v) es -> In u ns /\ In v ns) ->
  topological_order ns es order -> ~ has_cycle es.
Proof.
  intros HE (ND & HI & HT) [v HC].
  assert (P : forall a b, clos_trans A (fun a b => In (a, b) es) a b ->
    exists x y z, order = x ++ a :: y ++ b :: z).
  { assert (S1 : forall a b, In (a, b) es -> exists x y z, order = x ++ a :: y ++ b :: z).
    { intros a b H. destruct (HE _ _ H) as [_ Hb]. apply HI in Hb. apply in_split in Hb. destruct Hb as (l1 & l2 & E).
      pose proof (HT _ _ _ E _ H) as Ha. apply in_split in Ha. destruct Ha as (x & y & ->).
      exists x, y, l2. rewrite E, <- app_assoc. reflexivity. }
    intros a b H. apply clos_trans_tn1 in H. induction H as [b H|b c H _ IH]; [auto|].
    destruct IH as (x & y & z & E). destruct (S1 _ _ H) as (x' & y' & z' & E').
    (* both decompositions split order at b; NoDup makes them equal *)
    assert (EQ : x ++ a :: y = x' /\ z = y' ++ c :: z').
    { rewrite E' in E. change (x' ++ b :: y' ++ c :: z') with (x' ++ b :: (y' ++ c :: z')) in E.
      replace (x ++ a :: y ++ b :: z) with ((x ++ a :: y) ++ b :: z) in E by (rewrite <- app_assoc; reflexivity).
      rewrite E' in ND. clear - E ND.
      revert E ND. generalize (x ++ a :: y) (y' ++ c :: z'). intros p q. revert x'. induction p as [|p0 p IH]; intros [|q0 q'] E ND.
      - cbn in E. injection E. auto.
      - cbn in E. injection E as -> E. exfalso. cbn in ND. inversion ND as [|? ? NI _]; subst. apply NI.
        apply in_or_app. right. now left.
      - cbn in E. injection E as -> E. exfalso. cbn in ND. inversion ND as [|? ? NI _]; subst. apply NI.
        apply in_or_app. right. now left.
      - cbn in E. injection E as -> E. cbn in ND. inversion ND; subst. destruct (IH q' E) as [-> ->]; auto. }
    destruct EQ as [_ ->]. exists x, (y ++ b :: y'), z'. rewrite E, <- app_assoc. reflexivity. }
  destruct (P v v HC) as (x & y & z & E). rewrite E in ND. apply NoDup_remove_2 in ND. apply ND.
  apply in_or_app. right. apply in_or_app. right. now left.
Qed.
End Kahn.

(** * The dependency graph *)

(** Every node is an end point of an edge, and conversely. *)
Definition edge_graph {A} (G : digraph A) : Prop :=
  NoDup (nodes G) /\ NoDup (edges G) /\
  forall n, In n (nodes G) <-> exists e, In e (edges G) /\ (n = fst e \/ n = snd e).

Lemma add_if_new_in {A} (dec : eq_dec A) l a b : In b (add_if_new dec l a) <-> In b l \/ b = a.
Proof.
  unfold add_if_new. destruct (mem dec a l) eqn:E.
  - apply mem_spec in E. split; [now left|]. intros [H| ->]; auto.
  - rewrite in_app_iff. cbn. intuition.
Qed.
Lemma add_if_new_nodup {A} (dec : eq_dec A) l a : NoDup l -> NoDup (add_if_new dec l a).
Proof.
  intros ND. unfold add_if_new. destruct (mem dec a l) eqn:E; [exact ND|].
  eapply Permutation_NoDup; [apply Permutation_cons_append|]. constructor; [|exact ND].
  intros H. apply (mem_spec dec) in H. congruence.
Qed.
Lemma add_edge_edges {A} (dec : eq_dec A) G u v e : In e (edges (add_edge dec G u v)) <-> In e (edges G) \/ e = (u, v).
Proof. apply add_if_new_in. Qed.
Lemma add_edge_graph {A} (dec : eq_dec A) G u v : edge_graph G -> edge_graph (add_edge dec G u v).
Proof.
  intros (N1 & N2 & H). split; [|split].
  - apply add_if_new_nodup. apply add_if_new_nodup. exact N1.
  - apply add_if_new_nodup. exact N2.
  - intros n. cbn [add_edge nodes]. rewrite !add_if_new_in, H. split.
    + intros [[(e & He & Hn)| ->]| ->].
      * exists e. rewrite add_edge_edges. auto.
      * exists (u, v). rewrite add_edge_edges. auto.
      * exists (u, v). rewrite add_edge_edges. auto.
    + intros (e & He & Hn). apply add_edge_edges in He. destruct He as [He| ->]; [left; left; eauto|].
      destruct Hn as [-> | ->]; auto.
Qed.
Lemma empty_edge_graph {A} : edge_graph (@empty_graph A).
Proof. split; [constructor|]. split; [constructor|]. intros n. cbn. split; [intros []|intros (e & [] & _)]. Qed.
Lemma edge_graph_proper {A} (G : digraph A) : edge_graph G -> proper_graph (nodes G) (edges G).
Proof.
  intros (N1 & N2 & H). split; [exact N1|]. split; [exact N2|]. intros u v E.
  split; apply H; exists (u, v); auto.
Qed.

(** [G'] is [G] with the edges in [P] added. *)
Definition extends {A} (G G' : digraph A) (P : A * A -> Prop) : Prop :=
  (edge_graph G -> edge_graph G') /\ forall e, In e (edges G') <-> In e (edges G) \/ P e.

Lemma extends_trans {A} (G1 G2 G3 : digraph A) P Q R : extends G1 G2 P -> extends G2 G3 Q ->
  (forall e, R e <-> P e \/ Q e) -> extends G1 G3 R.
Proof.
  intros [A1 B1] [A2 B2] H. split; [auto|]. intros e. rewrite B2, B1, H. tauto.
Qed.

Lemma add_dependencies_ok inb cur ds : (forall d, In d ds -> exists i, nth_error inb (input_index d) = Some i) ->
  forall G, exists G', add_dependencies G inb cur ds = Ok G' /\
    extends G G' (fun e => exists d i, In d ds /\ nth_error inb (input_index d) = Some i /\ e = ((i, spatial_location d), cur)).
Proof.
  induction ds as [|d ds IH]; intros H G; cbn [add_dependencies].
  - exists G. split; [reflexivity|]. split; [auto|]. intros e. split; [auto|]. intros [He|(d & i & [] & _)]. exact He.
  - destruct (H d) as [i Hi]; [now left|]. rewrite Hi.
    destruct (IH ltac:(intros x Hx; apply H; now right) (add_edge node_dec G (i, spatial_location d) cur)) as (G' & -> & X).
    exists G'. split; [reflexivity|].
    apply (extends_trans G (add_edge node_dec G (i, spatial_location d) cur) G'
      (fun e => e = ((i, spatial_location d), cur)) _ _) with (2 := X).
    + split; [apply add_edge_graph|]. intros e. apply add_edge_edges.
    + intros e. split.
      * intros (x & j & [<-|Hx] & Hj & ->); [left; congruence | right; eauto].
      * intros [-> |(x & j & Hx & Hj & ->)]; [exists d, i; cbn; auto | exists x, j; cbn; auto].
Qed.

Lemma Forall2_impl {A B} (P Q : A -> B -> Prop) xs ys : (forall a b, P a b -> Q a b) -> Forall2 P xs ys -> Forall2 Q xs ys.
Proof. intros H F. induction F; constructor; auto. Qed.

Section WellFormed.
Context {V : Type} (valid : nat -> V -> Prop) (zeros : nat -> V) (M : kmodel V) (WF : well_formed valid zeros M).

Lemma layer_at_ok k L : nth_error (klayers M) k = Some L -> layer_at M k = Ok L.
Proof. unfold layer_at. now intros ->. Qed.

Lemma wf_inbound_layer k L i : nth_error (klayers M) k = Some L -> 0 < k -> In i (inbound L) ->
  exists Li, nth_error (klayers M) i = Some Li /\ i < k.
Proof.
  intros HL Hk Hi. destruct (proj2 (proj2 WF) k L HL Hk) as (_ & H & _). pose proof (H i Hi) as Hik.
  destruct (nth_error (klayers M) i) as [Li|] eqn:E; [eauto|]. apply nth_error_None in E.
  assert (k < length (klayers M)) by (apply nth_error_Some; congruence). lia.
Qed.

(** Constant tensors of the shapes of the inputs. *)
Definition shaped (i : nat) : tensor V :=
  {| tshape := match nth_error (klayers M) i with Some Li => out_shape Li | None => [] end; tval := fun _ => zeros i |}.

Lemma wf_deps k L l : nth_error (klayers M) k = Some L -> 0 < k -> in_shape (out_shape L) l ->
  exists ds, get_spatial_dependency L l = Ok ds /\
    forall d, In d ds -> exists i Li, nth_error (inbound L) (input_index d) = Some i /\
      nth_error (klayers M) i = Some Li /\ in_shape (out_shape Li) (spatial_location d) /\ i < k.
Proof.
  intros HL Hk Hl. destruct (proj2 (proj2 WF) k L HL Hk) as (_ & Hin & Hag).
  destruct (Hag (map shaped (inbound L))) as (HS & _ & HA).
  { clear - HL Hk WF. assert (H : forall i, In i (inbound L) -> exists Li, nth_error (klayers M) i = Some Li).
    { intros i Hi. destruct (wf_inbound_layer k L i HL Hk Hi) as (Li & E & _). eauto. }
    induction (inbound L) as [|i inb IH]; cbn [map]; constructor.
    - destruct (H i) as [Li E]; [now left|]. exists Li. split; [exact E|]. unfold shaped. cbn [tshape tval]. rewrite E.
      split; [reflexivity|]. intros l0 _. apply WF.
    - apply IH. intros j Hj. apply H. now right. }
  destruct (HA l) as (ds & vs & Hd & Hv & _); [now rewrite HS|]. exists ds. split; [exact Hd|].
  clear - Hv HL Hk WF. intros d Hd. unfold values_at in Hv.
  induction Hv as [|x v ds vs (t & Ht & Hs & _) _ IH]; [destruct Hd|]. destruct Hd as [<-|Hd]; [|auto].
  rewrite nth_error_map in Ht. destruct (nth_error (inbound L) (input_index x)) as [i|] eqn:E; [|discriminate].
  cbn in Ht. injection Ht as <-. destruct (wf_inbound_layer k L i HL Hk) as (Li & ELi & Hik); [now apply nth_error_In in E|].
  exists i, Li. split; [reflexivity|]. split; [exact ELi|]. split; [|exact Hik]. unfold shaped in Hs. cbn [tshape] in Hs.
  now rewrite ELi in Hs.
Qed.

(** The edges into the locations of layer [k]. *)
Definition layer_edge (k : nat) (e : node * node) : Prop :=
  exists L l ds d i, nth_error (klayers M) k = Some L /\ inbound L <> [] /\ in_shape (out_shape L) l /\
    get_spatial_dependency L l = Ok ds /\ In d ds /\ nth_error (inbound L) (input_index d) = Some i /\
    e = ((i, spatial_location d), (k, l)).

Lemma add_locations_ok k L : nth_error (klayers M) k = Some L -> 0 < k ->
  forall ls G, (forall l, In l ls -> in_shape (out_shape L) l) ->
  exists G', add_locations G L k ls = Ok G' /\
    extends G G' (fun e => exists l ds d i, In l ls /\ get_spatial_dependency L l = Ok ds /\ In d ds /\
      nth_error (inbound L) (input_index d) = Some i /\ e = ((i, spatial_location d), (k, l))).
Proof.
  intros HL Hk. induction ls as [|l ls IH]; intros G Hls; cbn [add_locations].
  - exists G. split; [reflexivity|]. split; [auto|]. intros e. split; [auto|]. intros [He|(l & ds & d & i & [] & _)]. exact He.
  - destruct (wf_deps k L l HL Hk) as (ds & Eds & Hds); [apply Hls; now left|]. rewrite Eds. cbn [bind].
    destruct (add_dependencies_ok (inbound L) (k, l) ds) with (G := G) as (G1 & -> & X1).
    { intros d Hd. destruct (Hds d Hd) as (i & _ & E & _). eauto. }
    cbn [bind]. destruct (IH G1) as (G2 & -> & X2); [intros x Hx; apply Hls; now right|].
    exists G2. split; [reflexivity|]. apply (extends_trans _ _ _ _ _ _ X1 X2). intros e. split.
    + intros (l' & ds' & d & i & [<-|Hl'] & E & Hd & Hi & ->).
      * left. rewrite Eds in E. injection E as ->. eauto.
      * right. exists l', ds', d, i. auto.
    + intros [(d & i & Hd & Hi & ->)|(l' & ds' & d & i & Hl' & E & Hd & Hi & ->)].
      * exists l, ds, d, i. cbn. auto.
      * exists l', ds', d, i. cbn. auto.
Qed.

Lemma visitor_ok k L G : nth_error (klayers M) k = Some L ->
  exists G', dependency_graph_visitor G L k = Ok G' /\ extends G G' (layer_edge k).
Proof.
  intros HL. unfold dependency_graph_visitor. destruct (inbound L) as [|i0 inb] eqn:EI.
  - exists G. split; [reflexivity|]. split; [auto|]. intros e. split; [auto|].
    intros [H|(L' & l & ds & d & i & E & N & _)]; [exact H|]. rewrite HL in E. injection E as <-. congruence.
  - assert (Hk : 0 < k).
    { destruct k; [|lia]. destruct WF as [(L0 & E0 & E1 & _) _]. rewrite HL in E0. injection E0 as <-. congruence. }
    destruct (add_locations_ok k L HL Hk (raster (out_shape L)) G) as (G' & E & X).
    { intros l Hl. now apply in_raster in Hl. }
    exists G'. split; [exact E|]. destruct X as [X1 X2]. split; [exact X1|]. intros e. rewrite X2.
    split; (intros [H|H]; [now left|right]).
    + destruct H as (l & ds & d & i & Hl & Hd & Hin & Hi & ->). exists L, l, ds, d, i. split; [exact HL|].
      split; [congruence|]. split; [now apply in_raster|]. auto.
    + destruct H as (L' & l & ds & d & i & E' & _ & Hl & Hd & Hin & Hi & ->). rewrite HL in E'. injection E' as <-.
      exists l, ds, d, i. split; [now apply in_raster|]. auto.
Qed.

(** What a depth first visit does. *)
Definition visited_ok (st st' : list nat * digraph node) (new : list nat) : Prop :=
  fst st' = new ++ fst st /\
  (forall j, In j new -> exists L, nth_error (klayers M) j = Some L /\ forall i, In i (inbound L) -> In i (fst st')) /\
  extends (snd st) (snd st') (fun e => exists j, In j new /\ layer_edge j e).

Lemma visit_ok fuel : forall k st L, k < fuel -> nth_error (klayers M) k = Some L ->
  exists st' new, visit_layer_predecessors M fuel k st = Ok st' /\ visited_ok st st' new /\ In k new.
Proof.
  induction fuel as [|fuel IH]; intros k st L Hk HL; [lia|].
  cbn [visit_layer_predecessors]. rewrite (layer_at_ok k L HL). cbn [bind].
  destruct (visitor_ok k L (snd st) HL) as (G & -> & XG). cbn [bind].
  match goal with |- context [?g (inbound L) (k :: fst st, G)] => set (go := g) end.
  assert (Hgo : forall inb, (forall i, In i inb -> exists Li, nth_error (klayers M) i = Some Li /\ i < fuel) ->
    forall st0, exists st' new, go inb st0 = Ok st' /\ fst st' = new ++ fst st0 /\
      (forall j, In j new -> exists L, nth_error (klayers M) j = Some L /\ forall i, In i (inbound L) -> In i (fst st')) /\
      extends (snd st0) (snd st') (fun e => exists j, In j new /\ layer_edge j e) /\
      (forall i, In i inb -> In i (fst st'))).
  { induction inb as [|i inb IHi]; intros Hinb st0; cbn [go].
    - exists st0, []. split; [reflexivity|]. split; [reflexivity|]. split; [intros j []|].
      split; [split; [auto|]; intros e; split; [auto|]; intros [H|(j & [] & _)]; exact H | intros i []].
    - destruct (mem Nat.eq_dec i (fst st0)) eqn:Em.
      + destruct (IHi ltac:(intros x Hx; apply Hinb; now right) st0) as (st' & new & E & F & C & X & I).
        exists st', new. split; [exact E|]. split; [exact F|]. split; [exact C|]. split; [exact X|].
        intros x [<-|Hx]; [|auto]. rewrite F. apply in_or_app. right. now apply (mem_spec Nat.eq_dec).
      + destruct (Hinb i) as (Li & ELi & Hif); [now left|].
        destruct (IH i st0 Li Hif ELi) as (st1 & new1 & E1 & (F1 & C1 & X1) & I1). rewrite E1. cbn [bind].
        destruct (IHi ltac:(intros x Hx; apply Hinb; now right) st1) as (st2 & new2 & E2 & F2 & C2 & X2 & I2).
        exists st2, (new2 ++ new1). split; [exact E2|]. split; [rewrite F2, F1, app_assoc; reflexivity|]. split.
        * intros j Hj. apply in_app_or in Hj. destruct Hj as [Hj|Hj]; [auto|].
          destruct (C1 j Hj) as (Lj & ELj & HC). exists Lj. split; [exact ELj|]. intros x Hx. rewrite F2.
          apply in_or_app. right. auto.
        * split.
          -- apply (extends_trans _ _ _ _ _ _ X1 X2). intros e. split.
             ++ intros (j & Hj & He). apply in_app_or in Hj. destruct Hj; eauto.
             ++ intros [(j & Hj & He)|(j & Hj & He)]; exists j; split; auto; apply in_or_app; auto.
          -- intros x [<-|Hx]; [|auto]. rewrite F2. apply in_or_app. right. rewrite F1. apply in_or_app. now left. }
  destruct (Hgo (inbound L)) with (st0 := (k :: fst st, G)) as (st' & new & E & F & C & X & I).
  { intros i Hi. destruct k.
    - destruct WF as [(L0 & E0 & E1 & _) _]. rewrite HL in E0. injection E0 as <-. rewrite E1 in Hi. destruct Hi.
    - destruct (wf_inbound_layer (S k) L i HL ltac:(lia) Hi) as (Li & ELi & Hik). exists Li. split; [exact ELi|lia]. }
  exists st', (new ++ [k]). split; [exact E|]. split; [|apply in_or_app; right; now left].
  cbn [fst snd] in F, X. split; [|split].
  - rewrite F, <- app_assoc. reflexivity.
  - intros j Hj. apply in_app_or in Hj. destruct Hj as [Hj|[<-|[]]]; [auto|]. exists L. split; [exact HL|exact I].
  - apply (extends_trans _ _ _ _ _ _ XG X). intros e. split.
    + intros (j & Hj & He). apply in_app_or in Hj. destruct Hj as [Hj|[<-|[]]]; eauto.
    + intros [He|(j & Hj & He)]; [exists k|exists j]; (split; [apply in_or_app|exact He]); [right; now left|now left].
Qed.

(** The whole graph. *)
Lemma build_graph_ok : exists G vs, build_graph M = Ok G /\ edge_graph G /\ In (output M) vs /\
  (forall k, In k vs -> exists L, nth_error (klayers M) k = Some L /\ forall i, In i (inbound L) -> In i vs) /\
  forall e, In e (edges G) <->
    (exists k, In k vs /\ layer_edge k e) \/
    (exists l, in_shape (input_shape M) l /\ e = ((output M, l), (0, l))).
Proof.
  destruct WF as [(L0 & EL0 & _ & L & EL & HS & _) _]. unfold build_graph.
  destruct (visit_ok (S (output M)) (output M) ([], empty_graph) L ltac:(lia) EL) as (st & new & -> & (F & C & X) & I).
  cbn [bind fst snd] in *. rewrite app_nil_r in F. unfold add_sampling_edges. rewrite (layer_at_ok _ _ EL). cbn [bind].
  assert (HF : forall ls G, extends G (fold_left (fun G l => add_edge node_dec G (output M, l) (0, l)) ls G)
     (fun e => exists l, In l ls /\ e = ((output M, l), (0, l)))).
  { induction ls as [|l ls IH]; intros G; cbn [fold_left].
    - split; [auto|]. intros e. split; [auto|]. intros [H|(l & [] & _)]. exact H.
    - eapply (extends_trans G (add_edge node_dec G (output M, l) (0, l)) _ (fun e => e = ((output M, l), (0, l)))).
      + split; [apply add_edge_graph|]. intros e. apply add_edge_edges.
      + apply IH.
      + intros e. split.
        * intros (x & [<-|Hx] & ->); [now left|right; eauto].
        * intros [-> |(x & Hx & ->)]; [exists l|exists x]; cbn; auto. }
  specialize (HF (raster (out_shape L)) (snd st)).
  do 2 eexists. split; [reflexivity|]. destruct X as [X1 X2], HF as [F1 F2].
  split; [apply F1, X1, empty_edge_graph|]. split; [exact I|]. split.
  - intros k Hk. destruct (C k Hk) as (Lk & E & H). exists Lk. split; [exact E|]. intros i Hi. rewrite <- F. auto.
  - intros e. rewrite F2, X2. cbn [empty_graph edges]. 
    assert (HSI : input_shape M = out_shape L).
    { unfold input_shape. rewrite HS. destruct (klayers M); [discriminate|]. cbn in EL0. congruence. }
    rewrite HSI. split.
    + intros [[[]|H]|(l & Hl & ->)]; [now left|]. right. exists l. split; [now apply in_raster|reflexivity].
    + intros [H|(l & Hl & ->)]; [left; now right|]. right. exists l. split; [now apply in_raster|reflexivity].
Qed.

(** ** Evaluation of the whole model *)
Lemma forward_from_spec d ls : forall ts, exists r, forward_from d ls ts = ts ++ r /\ length r = length ls /\
  forall j (L : layer V), nth_error ls j = Some L -> (forall i, In i (inbound L) -> i < length ts + j) ->
    nth (length ts + j) (ts ++ r) d = run L (map (fun i => nth i (ts ++ r) d) (inbound L)).
Proof.
  induction ls as [|L0 ls IH]; intros ts; cbn [forward_from].
  - exists []. rewrite app_nil_r. split; [reflexivity|]. split; [reflexivity|]. intros [|j] L E; discriminate.
  - set (t0 := run L0 (map (fun i => nth i ts d) (inbound L0))).
    destruct (IH (ts ++ [t0])) as (r & E & HL & H). exists (t0 :: r). rewrite E, <- app_assoc. cbn [app].
    split; [reflexivity|]. split; [cbn [length]; now rewrite HL|]. intros [|j] L EL Hin.
    + injection EL as <-. rewrite Nat.add_0_r, app_nth2, Nat.sub_diag by lia. cbn [nth]. unfold t0.
      f_equal. apply map_ext_in. intros i Hi. specialize (Hin i Hi). rewrite app_nth1 by lia. reflexivity.
    + specialize (H j L EL). rewrite <- app_assoc in H. cbn [app] in H. rewrite app_length in H. cbn [length] in H.
      replace (length ts + S j) with (length ts + 1 + j) by lia. apply H. intros i Hi. specialize (Hin i Hi). lia.
Qed.

(** The value of a node when the input is [x]. *)
Definition eval (x : loc -> V) (k : nat) : tensor V := nth k (forward M (input_of M x)) (input_of M x).
Definition nv (x : loc -> V) (n : node) : V := tval (eval x (fst n)) (snd n).

Lemma eval_0 x : eval x 0 = input_of M x.
Proof.
  unfold eval, forward. destruct (forward_from_spec (input_of M x) (tl (klayers M)) [input_of M x]) as (r & -> & _).
  reflexivity.
Qed.
Lemma eval_run x k L : nth_error (klayers M) k = Some L -> 0 < k -> eval x k = run L (map (eval x) (inbound L)).
Proof.
  intros EL Hk. unfold eval, forward.
  destruct (forward_from_spec (input_of M x) (tl (klayers M)) [input_of M x]) as (r & -> & _ & H).
  destruct k as [|k]; [lia|]. destruct (klayers M) as [|L0 ls] eqn:EM; [discriminate|]. cbn [tl] in *. cbn [nth_error] in EL.
  apply (H k L EL). intros i Hi. destruct (wf_inbound_layer (S k) L i) as (Li & _ & Hik); [now rewrite EM|lia|exact Hi|].
  cbn [length]. lia.
Qed.
Lemma eval_shape x : valid_input valid M x -> forall k L, nth_error (klayers M) k = Some L ->
  tshape (eval x k) = out_shape L /\ forall l, in_shape (out_shape L) l -> valid k (tval (eval x k) l).
Proof.
  intros Ox. induction k as [k IH] using lt_wf_ind. intros L EL. destruct k as [|k].
  - rewrite eval_0. cbn [input_of tshape tval]. unfold valid_input, input_shape in Ox.
    destruct (klayers M); [discriminate|]. injection EL as ->. auto.
  - rewrite (eval_run x _ _ EL) by lia. destruct (proj2 (proj2 WF) _ _ EL ltac:(lia)) as (_ & _ & H).
    assert (HI : forall i, In i (inbound L) -> exists Li, nth_error (klayers M) i = Some Li /\ i < S k)
      by (intros i Hi; eapply wf_inbound_layer; eauto; lia).
    destruct (H (map (eval x) (inbound L))) as (H1 & H2 & _); [|auto].
    clear H EL. induction (inbound L) as [|i inb IHi]; cbn [map]; constructor.
    + destruct (HI i) as (Li & E & Hik); [now left|]. exists Li. split; [exact E|]. destruct (IH i Hik Li E) as [Hs Hv].
      split; [exact Hs|]. intros l Hl. apply Hv. now rewrite <- Hs.
    + apply IHi. intros; apply HI; now right.
Qed.

Lemma node_value x k L l : valid_input valid M x -> nth_error (klayers M) k = Some L -> 0 < k -> in_shape (out_shape L) l ->
  exists ds vs, get_spatial_dependency L l = Ok ds /\
    Forall2 (fun d v => exists i Li, nth_error (inbound L) (input_index d) = Some i /\
      nth_error (klayers M) i = Some Li /\ in_shape (out_shape Li) (spatial_location d) /\
      v = nv x (i, spatial_location d)) ds vs /\
    apply_single L l vs = Ok (nv x (k, l)).
Proof.
  intros Ox EL Hk Hl. destruct (proj2 (proj2 WF) _ _ EL Hk) as (_ & _ & H).
  destruct (H (map (eval x) (inbound L))) as (HS & _ & HA).
  { assert (HI : forall i, In i (inbound L) -> exists Li, nth_error (klayers M) i = Some Li).
    { intros i Hi. destruct (wf_inbound_layer k L i EL Hk Hi) as (Li & E & _). eauto. }
    clear H. induction (inbound L) as [|i inb IHi]; cbn [map]; constructor.
    - destruct (HI i) as (Li & E); [now left|]. exists Li. split; [exact E|].
      destruct (eval_shape x Ox i Li E) as [Hs Hv]. split; [exact Hs|]. intros l0 Hl0. apply Hv. now rewrite <- Hs.
    - apply IHi. intros; apply HI; now right. }
  destruct (HA l) as (ds & vs & Hd & Hv & Hap); [now rewrite HS|]. exists ds, vs. split; [exact Hd|]. split.
  - eapply Forall2_impl; [|exact Hv]. cbn beta. intros d v (t & Ht & Hs & ->).
    rewrite nth_error_map in Ht. destruct (nth_error (inbound L) (input_index d)) as [i|] eqn:Ei; [|discriminate].
    injection Ht as <-. destruct (wf_inbound_layer k L i EL Hk) as (Li & ELi & _); [eapply nth_error_In; eauto|].
    exists i, Li. split; [reflexivity|]. split; [exact ELi|]. split; [|reflexivity]. now rewrite <- (proj1 (eval_shape x Ox i Li ELi)).
  - rewrite Hap. unfold nv. cbn [fst snd]. now rewrite (eval_run x k L).
Qed.

Context (G : digraph node) (HG : build_graph M = Ok G).

Definition layer_shape (k : nat) : list nat := match nth_error (klayers M) k with Some L => out_shape L | None => [] end.

Lemma layer0_shape : layer_shape 0 = input_shape M.
Proof. unfold layer_shape, input_shape. destruct WF as [(L0 & E0 & _) _]. destruct (klayers M); [discriminate|reflexivity]. Qed.
Lemma output_shape : layer_shape (output M) = input_shape M.
Proof.
  rewrite <- layer0_shape. unfold layer_shape. destruct WF as [(L0 & -> & _ & L & -> & E & _) _]. exact E.
Qed.

Lemma node_ok k l : In (k, l) (nodes G) -> exists L, nth_error (klayers M) k = Some L /\ in_shape (out_shape L) l /\
  (0 < k -> forall ds d i, get_spatial_dependency L l = Ok ds -> In d ds -> nth_error (inbound L) (input_index d) = Some i ->
    In ((i, spatial_location d), (k, l)) (edges G)).
Proof.
  destruct build_graph_ok as (G' & vs & E & (_ & _ & HN) & Ho & Hv & HE). rewrite HG in E. injection E as <-.
  assert (HK : forall k l L, In k vs -> nth_error (klayers M) k = Some L -> in_shape (out_shape L) l ->
     0 < k -> forall ds d i, get_spatial_dependency L l = Ok ds -> In d ds -> nth_error (inbound L) (input_index d) = Some i ->
       In ((i, spatial_location d), (k, l)) (edges G)).
  { clear k l. intros k l L Hk EL Hl Hk0 ds d i Eds Hd Hi. apply HE. left. exists k. split; [exact Hk|].
    exists L, l, ds, d, i. split; [exact EL|]. split; [apply (proj2 (proj2 WF) _ _ EL Hk0)|]. auto. }
  intros HI. apply HN in HI. destruct HI as (e & He & Hke). apply HE in He.
  destruct He as [(j & Hj & (L & l' & ds & d & i & EL & Ne & Hl & Eds & Hd & Hi & ->))|(l' & Hl & ->)]; cbn [fst snd] in Hke.
  - assert (Hj0 : 0 < j).
    { destruct j; [|lia]. destruct WF as [(L0 & E0 & E1 & _) _]. rewrite EL in E0. injection E0 as <-. congruence. }
    destruct Hke as [Hke|Hke]; injection Hke as -> ->.
    + destruct (wf_deps j L l' EL Hj0 Hl) as (ds' & Eds' & Hds). rewrite Eds in Eds'. injection Eds' as <-.
      destruct (Hds d Hd) as (i' & Li & Ei & ELi & Hs & _). rewrite Hi in Ei. injection Ei as <-.
      exists Li. split; [exact ELi|]. split; [exact Hs|]. apply HK; auto.
      destruct (Hv j Hj) as (L' & EL' & HL'). rewrite EL in EL'. injection EL' as <-. apply HL'. eapply nth_error_In; eauto.
    + exists L. split; [exact EL|]. split; [exact Hl|]. apply HK; auto.
  - destruct Hke as [Hke|Hke]; injection Hke as -> ->.
    + pose proof output_shape as HS. unfold layer_shape in HS.
      destruct WF as [(L0 & E0 & _ & L & EL & E & _) _]. rewrite EL in HS. exists L. split; [exact EL|].
      split; [now rewrite HS|]. apply HK; auto. now rewrite HS.
    + pose proof layer0_shape as HS. unfold layer_shape in HS. destruct WF as [(L0 & E0 & _) _]. rewrite E0 in HS.
      exists L0. split; [exact E0|]. split; [now rewrite HS|]. lia.
Qed.

Lemma site_edges l : in_shape (input_shape M) l -> In ((output M, l), (0, l)) (edges G) /\ In (0, l) (nodes G) /\
  In (output M, l) (nodes G).
Proof.
  destruct build_graph_ok as (G' & vs & E & EG & Ho & Hv & HE). rewrite HG in E. injection E as <-.
  intros Hl. assert (HI : In ((output M, l), (0, l)) (edges G)) by (apply HE; right; eauto).
  split; [exact HI|]. apply edge_graph_proper in EG. destruct EG as (_ & _ & EG). destruct (EG _ _ HI). auto.
Qed.

Lemma nodes_in_shape k l : In (k, l) (nodes G) -> in_shape (layer_shape k) l.
Proof. intros H. destruct (node_ok k l H) as (L & E & Hl & _). unfold layer_shape. now rewrite E. Qed.

Context (order : list node) (TO : topological_order (nodes G) (edges G) order).

Lemma node_local x y (Ox : valid_input valid M x) (Oy : valid_input valid M y) before k l after : order = before ++ (k, l) :: after -> 0 < k ->
  (forall n, In n before -> nv x n = nv y n) -> nv x (k, l) = nv y (k, l).
Proof.
  intros EO Hk H. assert (HI : In (k, l) (nodes G)).
  { apply TO. rewrite EO. apply in_or_app. right. now left. }
  destruct (node_ok k l HI) as (L & EL & Hl & HE).
  destruct (node_value x k L l Ox EL Hk Hl) as (ds & vx & Ed & Hvx & Hx).
  destruct (node_value y k L l Oy EL Hk Hl) as (ds' & vy & Ed' & Hvy & Hy).
  rewrite Ed in Ed'. injection Ed' as <-.
  assert (E : vx = vy).
  { assert (HE' : forall d i, In d ds -> nth_error (inbound L) (input_index d) = Some i ->
       nv x (i, spatial_location d) = nv y (i, spatial_location d)).
    { intros d i Hd Hi. apply H. destruct TO as (_ & _ & T). eapply T; [exact EO|]. eapply HE; eauto. }
    clear - HE' Hvx Hvy. revert vy Hvy. induction Hvx as [|d v ds vx (i & Li & Hi & _ & _ & ->) Hvx IH]; intros vy Hvy.
    - now inversion Hvy.
    - inversion Hvy as [|d' v' ds' vy' (i' & Li' & Hi' & _ & _ & ->) Hvy']; subst. rewrite Hi in Hi'. injection Hi' as <-.
      f_equal; [apply HE'; [now left|exact Hi]|]. apply IH; [|exact Hvy']. intros; apply HE'; [now right|assumption]. }
  congruence.
Qed.

Lemma nv_input x l : nv x (0, l) = x l.
Proof. unfold nv. cbn [fst snd]. now rewrite eval_0. Qed.

(** Inputs that agree on the sites of a prefix of the order agree on all nodes of the prefix. *)
Lemma agree_prefix x y (Ox : valid_input valid M x) (Oy : valid_input valid M y) : forall before after, order = before ++ after ->
  (forall l, In (0, l) before -> x l = y l) -> forall n, In n before -> nv x n = nv y n.
Proof.
  induction before as [|[k l] before IH] using rev_ind; intros after EO H n Hn; [destruct Hn|].
  rewrite <- app_assoc in EO. cbn [app] in EO.
  assert (IH' : forall n, In n before -> nv x n = nv y n).
  { eapply IH; [exact EO|]. intros l' Hl'. apply H. apply in_or_app. now left. }
  apply in_app_or in Hn. destruct Hn as [Hn|[<-|[]]]; [auto|]. destruct k as [|k].
  - rewrite !nv_input. apply H. apply in_or_app. right. now left.
  - eapply node_local; [exact Ox|exact Oy|exact EO|lia|exact IH'].
Qed.

Context (draw : loc -> V -> V) (DV : draws_valid valid M draw).
Definition sample_of (st : activations V) : loc -> V := fun l => activation zeros st (0, l).

Definition sampling_inv (before : list node) (st : activations V) : Prop :=
  valid_input valid M (sample_of st) /\
  (forall n, In n before -> activation zeros st n = nv (sample_of st) n) /\
  (forall l, In (0, l) before -> sample_of st l = draw l (nv (sample_of st) (output M, l))).

Lemma activation_same (n : node) (v : V) st : activation zeros ((n, v) :: st) n = v.
Proof. cbn [activation]. destruct (node_dec n n); congruence. Qed.
Lemma activation_other (n m : node) (v : V) st : n <> m -> activation zeros ((n, v) :: st) m = activation zeros st m.
Proof. intros H. cbn [activation]. destruct (node_dec n m); congruence. Qed.

Lemma get_values_ok before st inputs ds vs x : 
  Forall2 (fun d v => exists i Li, nth_error inputs (input_index d) = Some i /\
      nth_error (klayers M) i = Some Li /\ in_shape (out_shape Li) (spatial_location d) /\
      v = nv x (i, spatial_location d)) ds vs ->
  (forall d i, In d ds -> nth_error inputs (input_index d) = Some i -> In (i, spatial_location d) before) ->
  (forall n, In n before -> activation zeros st n = nv x n) ->
  get_dependencies_values M zeros st inputs ds = Ok vs.
Proof.
  intros F. induction F as [|d v ds vs (i & Li & Hi & ELi & Hs & ->) F IH]; intros HB HA; [reflexivity|].
  cbn [get_dependencies_values]. unfold get_dependency_value. rewrite Hi, (layer_at_ok _ _ ELi). cbn [bind].
  assert (Em : mem (list_eq_dec Nat.eq_dec) (spatial_location d) (raster (out_shape Li)) = true)
    by (apply mem_spec; now apply in_raster).
  rewrite Em. cbn [bind]. rewrite IH; auto; [|intros; apply HB; [now right|assumption]]. cbn [bind].
  rewrite HA; [reflexivity|]. apply HB; [now left|exact Hi].
Qed.

Lemma sampling_loop_ok : forall after before st, order = before ++ after -> sampling_inv before st ->
  exists st', sampling_loop M zeros draw after st = Ok st' /\ sampling_inv order st'.
Proof.
  induction after as [|[k l] after IH]; intros before st EO (Ox & I1 & I2).
  - exists st. split; [reflexivity|]. rewrite app_nil_r in EO. now subst before.
  - assert (HI : In (k, l) (nodes G)) by (apply TO; rewrite EO; apply in_or_app; right; now left).
    assert (Hnew : ~ In (k, l) before).
    { destruct TO as (ND & _ & _). rewrite EO in ND. apply NoDup_remove_2 in ND. intros H. apply ND. apply in_or_app. now left. }
    destruct (node_ok k l HI) as (L & EL & Hl & HE).
    assert (Hstep : exists v, (do L <- layer_at M k;
        let inputs := if k =? 0 then [output M] else inbound L in
        do ds <- (if k =? 0 then Ok [dep0 l] else get_spatial_dependency L l);
        do values <- get_dependencies_values M zeros st inputs ds;
        (if k =? 0 then do x <- first_value values; Ok (draw l x) else apply_single L l values)) = Ok v /\
        (0 < k -> v = nv (sample_of st) (k, l)) /\ (k = 0 -> v = draw l (nv (sample_of st) (output M, l)) /\ In (output M, l) before)).
    { rewrite (layer_at_ok _ _ EL). cbn [bind]. cbv zeta. destruct k as [|k].
      - cbn [Nat.eqb bind]. pose proof (nodes_in_shape 0 l HI) as Hs0. rewrite layer0_shape in Hs0.
        destruct (site_edges l Hs0) as (He & _ & Ho). destruct (node_ok _ _ Ho) as (Lo & ELo & Hlo & _).
        assert (Hob : In (output M, l) before) by (destruct TO as (_ & _ & T); eapply T; [exact EO|exact He]).
        rewrite (get_values_ok before st [output M] [dep0 l] [nv (sample_of st) (output M, l)] (sample_of st)).
        + cbn [bind first_value]. eexists. split; [reflexivity|]. split; [lia|]. auto.
        + constructor; [|constructor]. exists (output M), Lo. cbn. auto.
        + intros d i [<-|[]]. cbn. intros E. injection E as <-. exact Hob.
        + exact I1.
      - cbn [Nat.eqb]. destruct (node_value (sample_of st) (S k) L l Ox EL ltac:(lia) Hl) as (ds & vs & Eds & Hv & Hap).
        rewrite Eds. cbn [bind]. rewrite (get_values_ok before st (inbound L) ds vs (sample_of st) Hv); [|clear Hv|exact I1].
        + cbn [bind]. rewrite Hap. eexists. split; [reflexivity|]. split; [reflexivity|discriminate].
        + intros d i Hd Hi. destruct TO as (_ & _ & T). eapply T; [exact EO|]. eapply HE; eauto. lia. }
    destruct Hstep as (v & Ev & Hv1 & Hv0).
    assert (Hloop : sampling_loop M zeros draw ((k, l) :: after) st = sampling_loop M zeros draw after (((k, l), v) :: st)).
    { cbn [sampling_loop]. destruct (layer_at M k) as [L'|]; cbn [bind] in *; [|discriminate]. cbv zeta in *.
      destruct (if k =? 0 then Ok [dep0 l] else get_spatial_dependency L' l) as [ds|]; cbn [bind] in *; [|discriminate].
      destruct (get_dependencies_values M zeros st (if k =? 0 then [output M] else inbound L') ds) as [vals|];
        cbn [bind] in *; [|discriminate]. now rewrite Ev. }
    rewrite Hloop. set (st1 := ((k, l), v) :: st).
    assert (Hold : forall n, In n before -> activation zeros st1 n = activation zeros st n).
    { intros n Hn. apply activation_other. intros <-. contradiction. }
    assert (Ox1 : valid_input valid M (sample_of st1)).
    { intros l' Hl'. unfold sample_of, st1. cbn [activation]. destruct (node_dec (k, l) (0, l')) as [E|_]; [|now apply Ox].
      injection E as -> ->. destruct (Hv0 eq_refl) as [-> _]. apply DV. unfold nv. cbn [fst snd].
      pose proof output_shape as HS. unfold layer_shape in HS. destruct WF as [(L0 & _ & _ & Lo & ELo & _) _]. rewrite ELo in HS.
      apply (eval_shape _ Ox _ Lo ELo). now rewrite HS. }
    assert (Hsame : forall n, In n before -> nv (sample_of st1) n = nv (sample_of st) n).
    { eapply agree_prefix; [exact Ox1|exact Ox|exact EO|]. intros l' Hl'. unfold sample_of. now apply Hold. }
    apply (IH (before ++ [(k, l)])); [rewrite <- app_assoc; exact EO|]. split; [exact Ox1|]. split.
    + intros n Hn. apply in_app_or in Hn. destruct Hn as [Hn|[<-|[]]].
      * rewrite Hold, Hsame by exact Hn. now apply I1.
      * destruct k as [|k]; [now rewrite nv_input|]. unfold st1 at 1. rewrite activation_same, (Hv1 ltac:(lia)).
        symmetry. eapply node_local; [exact Ox1|exact Ox|exact EO|lia|exact Hsame].
    + intros l' Hl'. apply in_app_or in Hl'. destruct Hl' as [Hl'|[E|[]]].
      * unfold sample_of at 1. rewrite Hold by exact Hl'. change (activation zeros st (0, l')) with (sample_of st l').
        rewrite I2 by exact Hl'. f_equal. symmetry. apply Hsame.
        assert (Hs0 : in_shape (input_shape M) l').
        { rewrite <- layer0_shape. apply nodes_in_shape. apply TO. rewrite EO. apply in_or_app. now left. }
        destruct (site_edges l' Hs0) as (He & _ & _). destruct TO as (_ & _ & T).
        apply in_split in Hl'. destruct Hl' as (b1 & b2 & ->). rewrite <- app_assoc in EO. cbn [app] in EO.
        apply in_or_app. left. eapply T; [exact EO|exact He].
      * injection E as -> ->. destruct (Hv0 eq_refl) as [-> Hob]. unfold sample_of at 1, st1 at 1. rewrite activation_same.
        f_equal. symmetry. now apply Hsame.
Qed.

Lemma predict_nv x l : tval (predict M (input_of M x)) l = nv x (output M, l).
Proof. reflexivity. Qed.

Lemma in_order k l : In (k, l) order <-> In (k, l) (nodes G).
Proof. apply TO. Qed.

Lemma consistent_unique x y (Ox : valid_input valid M x) (Oy : valid_input valid M y) : consistent M draw x -> consistent M draw y ->
  forall l, in_shape (input_shape M) l -> x l = y l.
Proof.
  intros Hx Hy.
  assert (H : forall before after, order = before ++ after -> forall l, In (0, l) before -> x l = y l).
  { induction before as [|[k l0] before IH] using rev_ind; intros after EO l Hl; [destruct Hl|].
    rewrite <- app_assoc in EO. cbn [app] in EO. pose proof (IH _ EO) as IH'.
    apply in_app_or in Hl. destruct Hl as [Hl|[E|[]]]; [auto|]. injection E as -> ->.
    assert (Hs : in_shape (input_shape M) l).
    { rewrite <- layer0_shape. apply nodes_in_shape. apply TO. rewrite EO. apply in_or_app. right. now left. }
    rewrite Hx, Hy by exact Hs. f_equal. rewrite !predict_nv. eapply agree_prefix; [exact Ox|exact Oy|exact EO|exact IH'|].
    destruct TO as (_ & _ & T). eapply T; [exact EO|]. now apply site_edges. }
  intros l Hl. apply (H order [] ltac:(now rewrite app_nil_r)). apply in_order. now apply site_edges.
Qed.

Lemma sampling_ok : exists st, sampling_loop M zeros draw order [] = Ok st /\ valid_input valid M (sample_of st) /\ consistent M draw (sample_of st).
Proof.
  destruct (sampling_loop_ok order [] [] eq_refl) as (st & E & Ox & _ & I2).
  { split; [|split; [intros n []|intros l []]]. intros l _. cbn. apply WF. }
  exists st. split; [exact E|]. split; [exact Ox|]. intros l Hl. rewrite predict_nv. apply I2. apply in_order. now apply site_edges.
Qed.

(** ** The order of the sites *)
Lemma visited_sites_app a b : visited_sites (a ++ b) = visited_sites a ++ visited_sites b.
Proof. induction a as [|[[|k] l] a IH]; cbn [app visited_sites]; [reflexivity|now rewrite IH|exact IH]. Qed.
Lemma in_visited_sites o l : In l (visited_sites o) <-> In (0, l) o.
Proof.
  induction o as [|[[|k] l0] o IH]; cbn [visited_sites In]; [tauto| |].
  - rewrite IH. split; intros [H|H]; auto; [left; congruence|]. injection H as ->. now left.
  - rewrite IH. split; [auto|]. intros [H|H]; [discriminate|exact H].
Qed.
Lemma visited_sites_nodup o : NoDup o -> NoDup (visited_sites o).
Proof.
  induction 1 as [|[[|k] l] o Hn ND IH]; cbn [visited_sites]; [constructor| |exact IH].
  constructor; [|exact IH]. now rewrite in_visited_sites.
Qed.
Lemma sites_ordering : ordering_of (input_shape M) (visited_sites order).
Proof.
  split; [apply visited_sites_nodup; apply TO|]. intros l. rewrite in_visited_sites, in_order. split.
  - intros H. rewrite <- layer0_shape. now apply nodes_in_shape.
  - intros H. now apply site_edges.
Qed.
Lemma visited_sites_split o : forall a l b, visited_sites o = a ++ l :: b ->
  exists o1 o2, o = o1 ++ (0, l) :: o2 /\ visited_sites o1 = a.
Proof.
  induction o as [|[[|k] l0] o IH]; cbn [visited_sites]; intros a l b E.
  - destruct a; discriminate.
  - destruct a as [|a0 a]; injection E as -> E.
    + exists [], o. auto.
    + destruct (IH _ _ _ E) as (o1 & o2 & -> & H). exists ((0, a0) :: o1), o2. split; [reflexivity|]. cbn. now rewrite H.
  - destruct (IH _ _ _ E) as (o1 & o2 & -> & H). exists ((S k, l0) :: o1), o2. auto.
Qed.

(** What the model says about a site depends on the sites visited before only. *)
Lemma sites_autoregressive x y (Ox : valid_input valid M x) (Oy : valid_input valid M y) before l after : visited_sites order = before ++ l :: after ->
  (forall l', In l' before -> x l' = y l') ->
  tval (predict M (input_of M x)) l = tval (predict M (input_of M y)) l.
Proof.
  intros E H. destruct (visited_sites_split _ _ _ _ E) as (o1 & o2 & EO & <-).
  rewrite !predict_nv. eapply agree_prefix; [exact Ox|exact Oy|exact EO| |].
  - intros l' Hl'. apply H. now apply in_visited_sites.
  - destruct TO as (_ & _ & T). eapply T; [exact EO|]. apply site_edges. rewrite <- layer0_shape. apply nodes_in_shape, in_order.
    rewrite EO. apply in_or_app. right. now left.
Qed.
End WellFormed.

(** * Final statements *)
Lemma sort_cases {A} (dec : eq_dec A) (G : digraph A) : proper_graph (nodes G) (edges G) ->
  (~ has_cycle (edges G) /\ exists order, run_generator (topological_sort dec G) = Ok order /\
     topological_order (nodes G) (edges G) order) \/
  (has_cycle (edges G) /\ run_generator (topological_sort dec G) = Err NetworkXUnfeasible).
Proof.
  intros PG. cbn [topological_sort run_generator]. pose proof (list_topological_sort_result dec G PG) as H.
  destruct (list_topological_sort dec G) as [order|e].
  - left. split; [|eauto]. eapply topological_no_cycle; [apply PG|exact H].
  - right. destruct e; try contradiction. auto.
Qed.

Lemma build_graph_proper {V} valid zeros (M : kmodel V) : well_formed valid zeros M ->
  exists G, build_graph M = Ok G /\ proper_graph (nodes G) (edges G).
Proof.
  intros WF. destruct (build_graph_ok valid zeros M WF) as (G & vs & E & EG & _). exists G. split; [exact E|].
  now apply edge_graph_proper.
Qed.

Lemma assert_valid_never_raises {V} valid zeros (M : kmodel V) : well_formed valid zeros M ->
  assert_valid_probabilistic_model M = Ok tt.
Proof.
  intros WF. destruct (build_graph_proper _ _ _ WF) as (G & E & _). unfold assert_valid_probabilistic_model. now rewrite E.
Qed.

Lemma fast_sample_cyclic {V} valid zeros (M : kmodel V) draw G : well_formed valid zeros M -> build_graph M = Ok G ->
  has_cycle (edges G) -> fast_sample M zeros draw = Err NetworkXUnfeasible.
Proof.
  intros WF E HC. destruct (build_graph_proper _ _ _ WF) as (G' & E' & PG). rewrite E in E'. injection E' as <-.
  unfold fast_sample. rewrite E. cbn [bind]. destruct (sort_cases node_dec G PG) as [[N _]|[_ H]]; [contradiction|].
  now rewrite H.
Qed.

Lemma any_order_samples {V} valid zeros (M : kmodel V) draw G order : well_formed valid zeros M ->
  draws_valid valid M draw -> build_graph M = Ok G -> topological_order (nodes G) (edges G) order ->
  exists st, sampling_loop M zeros draw order [] = Ok st /\
    let x := fun l => activation zeros st (0, l) in
    valid_input valid M x /\ consistent M draw x /\
    forall y, valid_input valid M y -> consistent M draw y -> forall l, in_shape (input_shape M) l -> y l = x l.
Proof.
  intros WF DV E TO. destruct (sampling_ok valid zeros M WF G E order TO draw DV) as (st & Es & Ox & Cx).
  exists st. split; [exact Es|]. split; [exact Ox|]. split; [exact Cx|]. intros y Oy Cy l Hl.
  change (y l = sample_of zeros st l). eapply consistent_unique; eauto.
Qed.

Lemma fast_sample_ok {V} valid zeros (M : kmodel V) draw G : well_formed valid zeros M -> draws_valid valid M draw ->
  build_graph M = Ok G -> ~ has_cycle (edges G) ->
  exists x, fast_sample M zeros draw = Ok x /\ valid_input valid M x /\ consistent M draw x /\
    forall y, valid_input valid M y -> consistent M draw y -> forall l, in_shape (input_shape M) l -> y l = x l.
Proof.
  intros WF DV E NC. destruct (build_graph_proper _ _ _ WF) as (G' & E' & PG). rewrite E in E'. injection E' as <-.
  unfold fast_sample. rewrite E. cbn [bind]. destruct (sort_cases node_dec G PG) as [[_ (order & Eo & TO)]|[H _]]; [|contradiction].
  rewrite Eo. cbn [bind]. destruct (any_order_samples valid zeros M draw G order WF DV E TO) as (st & Es & H).
  rewrite Es. cbn [bind]. eexists. split; [reflexivity|]. exact H.
Qed.

Lemma graph_order_autoregressive {V} valid zeros (M : kmodel V) enc logit G order : well_formed valid zeros M ->
  (forall z, valid 0 (enc z)) -> build_graph M = Ok G -> topological_order (nodes G) (edges G) order ->
  ordering_of (input_shape M) (visited_sites order) /\
  autoregressive (volume (input_shape M)) (map (row_major (input_shape M)) (visited_sites order))
    (site_log_probs M enc logit).
Proof.
  intros WF HV E TO. pose proof (sites_ordering valid zeros M WF G E order TO) as HO. split; [exact HO|].
  intros before i after EO s t _ _ HA. unfold site_log_probs. f_equal. f_equal.
  apply map_eq_app in EO. destruct EO as (b & r & EV & <- & E2). apply map_eq_cons in E2.
  destruct E2 as (l & a & -> & <- & _).
  assert (Hl : in_shape (input_shape M) l) by (apply HO; rewrite EV; apply in_or_app; right; now left).
  rewrite location_row_major by exact Hl.
  eapply (sites_autoregressive valid zeros M WF G E order TO); try exact EV.
  - intros l' _. apply HV.
  - intros l' _. apply HV.
  - intros l' Hl'. unfold encoded. f_equal. apply HA. now apply in_map.
Qed.

Lemma fast_equals_site_by_site {V} valid zeros (M : kmodel V) enc logit zero_base u G sites :
  well_formed valid zeros M -> (forall z, valid 0 (enc z)) -> build_graph M = Ok G -> ~ has_cycle (edges G) ->
  length (input_shape M) = 1 \/ length (input_shape M) = 2 ->
  ordering_of (input_shape M) sites ->
  autoregressive (volume (input_shape M)) (map (row_major (input_shape M)) sites) (site_log_probs M enc logit) ->
  exists x s, fast_sample M zeros (draw_with M enc logit zero_base u) = Ok x /\
    sampler_next (input_shape M) zero_base (site_log_probs M enc logit) sites u = Ok s /\
    length s = volume (input_shape M) /\
    forall l, in_shape (input_shape M) l -> x l = enc (nth (row_major (input_shape M) l) s 0%Z).
Proof.
  intros WF HV E NC HL HO HA.
  destruct (fast_sample_ok valid zeros M (draw_with M enc logit zero_base u) G WF) as (x & Ex & _ & _ & HU); auto.
  { intros l v _. apply HV. }
  destruct (sampler_fixed_point _ _ zero_base _ u HL HO HA) as (s & Es & Ls & Hs).
  exists x, s. split; [exact Ex|]. split; [exact Es|]. split; [exact Ls|]. intros l Hl. symmetry.
  apply (HU (encoded M enc s)); [intros l' _; apply HV| |exact Hl].
  intros l' Hl'. unfold encoded at 1. pose proof (row_major_lt _ _ Hl') as Hi. rewrite Hs by exact Hi.
  unfold draw_with, site_log_probs. cbn [nth]. now rewrite location_row_major.
Qed.
