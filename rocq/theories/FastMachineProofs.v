(** Layer graphs built step by step: well formed, acyclic, and computing the functions of MachinesModel.v. *)
From Coq Require Import List ZArith Arith Bool Reals Lia Relations.
From Verif Require Import Base Cplx OrderingModel OrderingSpec OrderingProofs TensorModel TopologyModel TopologySpec TopologyProofs
  AutoregressiveModel MachinesModel GraphModel GraphSpec GraphProofs FastMachineModel FastMachineSpec.
Import ListNotations.

(** * Relating tensors of values to tensors of vectors *)
Section Trel.
Context {V W : Type} (R : V -> W -> Prop).
Definition trel (t : tensor V) (u : tensor W) : Prop := tshape t = tshape u /\ forall l, R (tval t l) (tval u l).
Lemma concat2_rel d a b a' b' : trel a a' -> trel b b' -> trel (concat2 d a b) (concat2 d a' b').
Proof.
  intros [A1 A2] [B1 B2]. split; cbn [concat2 tshape tval]; [now rewrite A1, B1|]. intros l. rewrite A1.
  destruct (nth d l 0 <? nth d (tshape a') 0); auto.
Qed.
Lemma constant_like_rel d n z z' t t' : R z z' -> trel t t' -> trel (constant_like d n z t) (constant_like d n z' t').
Proof. intros H [A _]. split; cbn; [now rewrite A|auto]. Qed.
Lemma take_first_rel d n t t' : trel t t' -> trel (take_first d n t) (take_first d n t').
Proof. intros [A B]. split; cbn; [now rewrite A|auto]. Qed.
Lemma shift_rel z z' d t t' : R z z' -> trel t t' -> trel (shift z d t) (shift z' d t').
Proof.
  intros H T. unfold shift. pose proof T as [A _]. rewrite A. apply concat2_rel; [apply constant_like_rel; [exact H|]|]; now apply take_first_rel.
Qed.
Lemma zero_padding_from_rel z z' p : R z z' -> forall d t t', trel t t' -> trel (zero_padding_from z d p t) (zero_padding_from z' d p t').
Proof.
  intros H. induction p as [|[b a] p IH]; intros d t t' T; cbn [zero_padding_from]; [exact T|].
  apply IH. repeat apply concat2_rel; try assumption; now apply constant_like_rel.
Qed.
End Trel.

(** * Topologies and changes of the values *)
Lemma values_at_map {V W} (g : V -> W) ts ds vs : values_at (map (on_values g) ts) ds vs -> exists vs', values_at ts ds vs' /\ vs = map g vs'.
Proof.
  unfold values_at. induction 1 as [|d v ds vs (t & Ht & Hs & ->) _ (vs' & IH & ->)]; [exists []; split; [constructor|reflexivity]|].
  rewrite nth_error_map in Ht. destruct (nth_error ts (input_index d)) as [u|] eqn:E; [|discriminate]. injection Ht as <-.
  exists (tval u (spatial_location d) :: vs'). split; [|reflexivity]. constructor; [|exact IH]. exists u. auto.
Qed.
Lemma agrees_map {V W X Y} (g : V -> W) (h : X -> Y) ts deps (apply : loc -> list W -> res X) out :
  agrees (map (on_values g) ts) deps apply out ->
  agrees ts deps (fun l vs => do v <- apply l (map g vs); Ok (h v)) (on_values h out).
Proof.
  intros A l Hl. destruct (A l Hl) as (ds & vs & E & Hv & Ha). apply values_at_map in Hv. destruct Hv as (vs' & Hv & ->).
  exists ds, vs'. split; [exact E|]. split; [exact Hv|]. rewrite Ha. reflexivity.
Qed.
Lemma agrees_ext {V W} (ts : list (tensor V)) deps (ap ap' : loc -> list V -> res W) out out' :
  agrees ts deps ap out -> tshape out' = tshape out -> (forall l vs, ap l vs = ap' l vs) ->
  (forall l, in_shape (tshape out) l -> tval out' l = tval out l) -> agrees ts deps ap' out'.
Proof.
  intros A S Ha Ho l Hl. rewrite S in Hl. destruct (A l Hl) as (ds & vs & E & Hv & H). exists ds, vs.
  rewrite (Ho l Hl), <- Ha. auto.
Qed.

(** Inputs of equal shapes are read at the same location. *)
Lemma broadcast_same s : forall l, in_shape s l -> broadcast_spatial_location s l = Ok l.
Proof.
  induction s as [|n s IH]; intros l H; inversion H as [|i ? l' ? Hi Hl]; subst; [reflexivity|]. cbn [broadcast_spatial_location].
  rewrite (IH l' Hl). cbn [bind]. destruct (Nat.ltb_spec i n); [reflexivity|lia].
Qed.
Lemma stored_size s f : stored_input_size false (s ++ [f]) = s.
Proof. unfold stored_input_size. apply removelast_last. Qed.
Lemma stored_size_expand s : stored_input_size true s = s.
Proof. unfold stored_input_size. apply removelast_last. Qed.
Lemma one_to_one_1 s l : in_shape s l -> one_to_one_dependencies [s] l = Ok [dep0 l].
Proof. intros H. unfold one_to_one_dependencies. cbn [one_to_one_from]. now rewrite (broadcast_same s l H). Qed.
Lemma one_to_one_2 s l : in_shape s l -> one_to_one_dependencies [s; s] l = Ok [dep0 l; {| input_index := 1; spatial_location := l |}].
Proof. intros H. unfold one_to_one_dependencies. cbn [one_to_one_from]. now rewrite (broadcast_same s l H). Qed.

(** * Graphs built by adding layers *)
Definition input_ok (S : graph) (i : nat) (t : tensor value) : Prop :=
  exists Li, nth_error S i = Some Li /\ tshape t = out_shape (body Li) /\
    forall l, in_shape (tshape t) l -> of_kind (ldtype Li) (lfeatures Li) (tval t l).
(** The layer can be added: it reads earlier layers and its topology agrees with it. *)
Definition fits (S : graph) (L : klayer) : Prop :=
  inbound (body L) <> [] /\ (forall i, In i (inbound (body L)) -> i < length S) /\
  forall ts, Forall2 (input_ok S) (inbound (body L)) ts ->
    tshape (run (body L) ts) = out_shape (body L) /\
    (forall l, in_shape (out_shape (body L)) l -> of_kind (ldtype L) (lfeatures L) (tval (run (body L) ts) l)) /\
    agrees ts (get_spatial_dependency (body L)) (apply_single (body L)) (run (body L) ts).
(** The time of a node: what it depends on is not later. *)
Definition on_time (S : graph) (Ts : list (loc -> Z)) (L : klayer) (T : loc -> Z) : Prop :=
  forall l ds d i Li Ti, in_shape (out_shape (body L)) l -> get_spatial_dependency (body L) l = Ok ds -> In d ds ->
    nth_error (inbound (body L)) (input_index d) = Some i -> nth_error S i = Some Li -> nth_error Ts i = Some Ti ->
    in_shape (out_shape (body Li)) (spatial_location d) -> (Ti (spatial_location d) <= T l)%Z.

Inductive good (shape : list nat) (T0 : loc -> Z) : graph -> list (loc -> Z) -> Prop :=
| good_input : good shape T0 [input_klayer shape] [T0]
| good_add : forall S Ts L T, good shape T0 S Ts -> fits S L -> on_time S Ts L T -> good shape T0 (S ++ [L]) (Ts ++ [T]).

Lemma good_length shape T0 S Ts : good shape T0 S Ts -> length S = length Ts /\ 0 < length S.
Proof. induction 1; rewrite ?app_length; cbn; lia. Qed.
Lemma good_first shape T0 S Ts : good shape T0 S Ts -> nth_error S 0 = Some (input_klayer shape) /\ nth_error Ts 0 = Some T0.
Proof.
  induction 1 as [|S Ts L T G [IH1 IH2] _ _]; [split; reflexivity|]. destruct (good_length _ _ _ _ G).
  rewrite !nth_error_app1 by lia. auto.
Qed.

(** The facts about layer [k]. *)
Lemma good_layer shape T0 S Ts : good shape T0 S Ts -> forall k L, nth_error S k = Some L -> 0 < k ->
  exists T, nth_error Ts k = Some T /\ fits (firstn k S) L /\ on_time (firstn k S) (firstn k Ts) L T.
Proof.
  induction 1 as [|S Ts L T G IH F O]; intros k L' E Hk.
  - destruct k as [|[|k]]; [lia|discriminate|discriminate].
  - destruct (good_length _ _ _ _ G) as [HL _]. destruct (Nat.lt_ge_cases k (length S)) as [Hlt|Hge].
    + rewrite nth_error_app1 in E by lia. destruct (IH k L' E Hk) as (T' & ET & F' & O'). exists T'.
      rewrite nth_error_app1 by lia. split; [exact ET|]. rewrite !firstn_app.
      replace (k - length S) with 0 by lia. replace (k - length Ts) with 0 by lia. cbn [firstn]. rewrite !app_nil_r. auto.
    + rewrite nth_error_app2 in E by lia. destruct (k - length S) as [|j] eqn:Ej; [|destruct j; discriminate]. injection E as <-.
      assert (k = length S) as -> by lia. exists T. rewrite nth_error_app2 by lia. rewrite HL, Nat.sub_diag. split; [reflexivity|].
      rewrite firstn_app, <- HL, firstn_all, Nat.sub_diag. cbn [firstn]. rewrite app_nil_r.
      rewrite firstn_app, HL, firstn_all, Nat.sub_diag. cbn [firstn]. rewrite app_nil_r. auto.
Qed.

Lemma nth_error_firstn_lt {A} (l : list A) k i : i < k -> nth_error (firstn k l) i = nth_error l i.
Proof.
  revert l i. induction k as [|k IH]; intros l i H; [lia|]. destruct l as [|a l]; [reflexivity|]. destruct i as [|i]; [reflexivity|].
  cbn. apply IH. lia.
Qed.

Lemma zeros_of_kind d f : of_kind d f (zeros_of d f).
Proof. destruct d; cbn; apply repeat_length. Qed.

Lemma good_well_formed shape T0 S Ts h L : good shape T0 S Ts -> nth_error S h = Some L -> 0 < h -> out_shape (body L) = shape ->
  well_formed (right_values S) (graph_zeros S) (keras_model (S, h)).
Proof.
  intros G EL Hh HS. destruct (good_first _ _ _ _ G) as [E0 _]. split; [|split].
  - exists (body (input_klayer shape)). cbn [keras_model klayers output fst snd]. rewrite !nth_error_map, E0, EL.
    split; [reflexivity|]. split; [reflexivity|]. exists (body L). auto.
  - intros k. unfold right_values, graph_zeros. destruct (nth_error S k); [apply zeros_of_kind|exact I].
  - intros k B EB Hk. cbn [keras_model klayers output fst snd] in *. rewrite nth_error_map in EB.
    destruct (nth_error S k) as [Lk|] eqn:Ek; [|discriminate]. injection EB as <-.
    destruct (good_layer _ _ _ _ G k Lk Ek Hk) as (T & _ & (F1 & F2 & F3) & _).
    assert (Hlen : length (firstn k S) <= k) by (rewrite firstn_length; lia).
    split; [exact F1|]. split; [intros i Hi; specialize (F2 i Hi); lia|]. intros ts Hts.
    destruct (F3 ts) as (A & B & C).
    + clear - Hts F2 Hlen. revert ts Hts F2. induction (inbound (body Lk)) as [|i is' IH]; intros ts Hts F2; inversion Hts as [|? t ? ts' Ht Hts']; subst; constructor.
      * destruct Ht as (Li & E & Hs & Hv). rewrite nth_error_map in E. destruct (nth_error S i) as [Ki|] eqn:Ei; [|discriminate].
        injection E as <-. exists Ki. rewrite nth_error_firstn_lt by (pose proof (F2 i (or_introl eq_refl)); lia).
        split; [exact Ei|]. split; [exact Hs|]. intros l Hl. specialize (Hv l Hl). unfold right_values in Hv. now rewrite Ei in Hv.
      * apply IH; [exact Hts'|]. intros j Hj. apply F2. now right.
    + split; [exact A|]. split; [|exact C]. intros l Hl. unfold right_values. rewrite Ek. now apply B.
Qed.

(** A rank that grows along the edges. *)
Lemma rank_acyclic {A} (rank : A -> Z) (es : list (A * A)) : (forall u v, In (u, v) es -> (rank u < rank v)%Z) -> ~ has_cycle es.
Proof.
  intros H [v C]. assert (K : forall a b, clos_trans A (fun a b => In (a, b) es) a b -> (rank a < rank b)%Z).
  { induction 1 as [a b E|a b c _ IH1 _ IH2]; [now apply H|lia]. }
  specialize (K v v C). lia.
Qed.

Lemma good_acyclic shape T0 S Ts h L Th : good shape T0 S Ts -> nth_error S h = Some L -> nth_error Ts h = Some Th -> 0 < h ->
  out_shape (body L) = shape -> (forall l, in_shape shape l -> (Th l < T0 l)%Z) ->
  exists G, build_graph (keras_model (S, h)) = Ok G /\ ~ has_cycle (edges G).
Proof.
  intros G EL ET Hh HS Hlt. pose proof (good_well_formed shape T0 S Ts h L G EL Hh HS) as WF.
  destruct (build_graph_ok _ _ _ WF) as (Gr & vs & E & _ & _ & Hvs & HE). exists Gr. split; [exact E|].
  destruct (good_first _ _ _ _ G) as [E0 ET0]. destruct (good_length _ _ _ _ G) as [HLen _].
  assert (HhL : h < length S) by (apply nth_error_Some; congruence).
  apply (rank_acyclic (fun n : node => (match nth_error Ts (fst n) with Some T => T (snd n) | None => 0 end * Z.of_nat (length S) + Z.of_nat (fst n))%Z)).
  intros u v Huv. apply HE in Huv. destruct Huv as [(k & Hk & (B & l & ds & d & i & EB & NI & Hl & Ed & Hd & Hi & Euv))|(l & Hl & Euv)].
  - injection Euv as -> ->. cbn [fst snd]. pose proof EB as EB0. cbn [keras_model klayers fst] in EB. rewrite nth_error_map in EB.
    destruct (nth_error S k) as [Lk|] eqn:Ek; [|discriminate]. injection EB as <-.
    assert (Hk0 : 0 < k). { destruct k; [|lia]. rewrite E0 in Ek. injection Ek as <-. exfalso. apply NI. reflexivity. }
    destruct (wf_deps _ _ _ WF k (body Lk) l EB0 Hk0 Hl) as (ds' & Ed' & Hds). rewrite Ed in Ed'. injection Ed' as <-.
    destruct (Hds d Hd) as (i' & Li & Hi' & ELi & HsL & Hik). rewrite Hi in Hi'. injection Hi' as <-.
    cbn [keras_model klayers fst] in ELi. rewrite nth_error_map in ELi. destruct (nth_error S i) as [Ki|] eqn:EKi; [|discriminate]. injection ELi as <-.
    destruct (good_layer _ _ _ _ G k Lk Ek Hk0) as (T & ETk & _ & O).
    destruct (nth_error Ts i) as [Ti|] eqn:ETi.
    2:{ apply nth_error_None in ETi. assert (i < length S) by (apply nth_error_Some; congruence). lia. }
    assert (HT : (Ti (spatial_location d) <= T l)%Z).
    { eapply (O l ds d i Ki Ti); eauto; rewrite nth_error_firstn_lt by lia; assumption. }
    rewrite ETk. assert (k < length S) by (apply nth_error_Some; congruence). nia.
  - injection Euv as -> ->. cbn [fst snd keras_model output]. rewrite ET0, ET.
    assert (Hl' : in_shape shape l).
    { unfold input_shape in Hl. cbn [keras_model klayers fst] in Hl. destruct S as [|L0 S']; [discriminate|]. injection E0 as ->. exact Hl. }
    specialize (Hlt l Hl'). nia.
Qed.

(** * Evaluation *)
Definition evals (S : graph) (x : tensor value) : list (tensor value) := forward_from x (tl (map body S)) [x].
Lemma forward_from_app {V} (d : tensor V) a : forall b ts, forward_from d (a ++ b) ts = forward_from d b (forward_from d a ts).
Proof. induction a as [|L a IH]; intros b ts; cbn [app forward_from]; [reflexivity|apply IH]. Qed.
Lemma evals_add S L x : 0 < length S -> evals (S ++ [L]) x = evals S x ++ [run (body L) (map (fun i => nth i (evals S x) x) (inbound (body L)))].
Proof.
  intros H. unfold evals. destruct S as [|L0 S]; [cbn in H; lia|]. cbn [app map tl]. rewrite map_app, forward_from_app. reflexivity.
Qed.
Lemma evals_length S x : 0 < length S -> length (evals S x) = length S.
Proof.
  intros H. unfold evals. destruct S as [|L0 S]; [cbn in H; lia|]. cbn [map tl length].
  destruct (forward_from_spec x (map body S) [x]) as (r & -> & Hr & _). rewrite app_length, Hr, map_length. reflexivity.
Qed.

(** * The layers *)
Section Layers.
Context (shape : list nat) (T0 : loc -> Z) (x : tensor value).

(** The laws of a number type. *)
Definition lawful {T} (N : number_type T) : Prop :=
  (forall a, unwrap N (wrap N a) = a) /\ (forall f, zeros_of (tag N) f = wrap N (repeat (zero (arithmetic N)) f)) /\
  (forall f v, of_kind (tag N) f v <-> exists a, v = wrap N a /\ length a = f).

(** Linear bounds of times. *)
Fixpoint dot (coef : list Z) (l : loc) : Z := match coef, l with a :: coef, i :: l => (a * Z.of_nat i + dot coef l)%Z | _, _ => 0%Z end.

(** Layer [h] computes the tensor [t] on the input x and its times are bounded. *)
Definition computes {T} (N : number_type T) (S : graph) (Ts : list (loc -> Z)) (h : nat) (t : ktensor T) (coef : list Z) (c : Z) : Prop :=
  exists L Th u, nth_error S h = Some L /\ nth_error Ts h = Some Th /\ nth_error (evals S x) h = Some u /\
    lfeatures L = features t /\ ldtype L = tag N /\ out_shape (body L) = tshape (kt t) /\
    Forall (fun n => 0 < n) (tshape (kt t)) /\ length (tshape (kt t)) = length coef /\
    (forall l, in_shape (tshape (kt t)) l -> (Th l <= dot coef l + c)%Z) /\
    trel (fun v a => v = wrap N a) u (kt t).

Lemma computes_app {T} (N : number_type T) S Ts L T' h t coef c : good shape T0 S Ts -> computes N S Ts h t coef c ->
  computes N (S ++ [L]) (Ts ++ [T']) h t coef c.
Proof.
  intros G (Lh & Th & u & H1 & H2 & H3 & H4). destruct (good_length _ _ _ _ G) as [HL HP]. exists Lh, Th, u.
  assert (h < length S) by (apply nth_error_Some; congruence).
  rewrite evals_add by lia. rewrite !nth_error_app1 by (rewrite ?evals_length; lia). auto.
Qed.

Lemma computes_weaken {T} (N : number_type T) S Ts h t coef c coef' c' : computes N S Ts h t coef c -> length coef' = length coef ->
  (forall l, in_shape (tshape (kt t)) l -> (dot coef l + c <= dot coef' l + c')%Z) -> computes N S Ts h t coef' c'.
Proof.
  intros (Lh & Th & u & H1 & H2 & H3 & H4 & H5 & H6 & H7 & H8 & H9 & H10) E H. exists Lh, Th, u. rewrite E.
  do 8 (split; [assumption|]). split; [|exact H10]. intros l Hl. specialize (H9 l Hl). specialize (H l Hl). lia.
Qed.

(** Adding a layer with one input. *)
Lemma add_one {T U} (N : number_type T) (N' : number_type U) S Ts h (t : ktensor T) coef c (L : klayer) (t' : ktensor U) coef' c' :
  lawful N -> lawful N' -> good shape T0 S Ts -> computes N S Ts h t coef c ->
  inbound (body L) = [h] -> lfeatures L = features t' -> ldtype L = tag N' -> out_shape (body L) = tshape (kt t') ->
  Forall (fun n => 0 < n) (tshape (kt t')) -> length (tshape (kt t')) = length coef' ->
  (forall u, tshape u = tshape (kt t) -> (forall l, in_shape (tshape u) l -> exists a, tval u l = wrap N a /\ length a = features t) ->
     tshape (run (body L) [u]) = out_shape (body L) /\
     (forall l, in_shape (out_shape (body L)) l -> of_kind (ldtype L) (lfeatures L) (tval (run (body L) [u]) l)) /\
     agrees [u] (get_spatial_dependency (body L)) (apply_single (body L)) (run (body L) [u])) ->
  (forall l ds d, in_shape (tshape (kt t')) l -> get_spatial_dependency (body L) l = Ok ds -> In d ds -> input_index d = 0 ->
     in_shape (tshape (kt t)) (spatial_location d) -> (dot coef (spatial_location d) + c <= dot coef' l + c')%Z) ->
  (forall u, trel (fun v a => v = wrap N a) u (kt t) -> trel (fun v a => v = wrap N' a) (run (body L) [u]) (kt t')) ->
  exists T', good shape T0 (S ++ [L]) (Ts ++ [T']) /\ computes N' (S ++ [L]) (Ts ++ [T']) (length S) t' coef' c'.
Proof.
  intros LN LN' G HC EI EF ED ES HP HR HF HT HV. destruct (good_length _ _ _ _ G) as [HLen HPos].
  destruct HC as (Lh & Th & u & H1 & H2 & H3 & H4 & H5 & H6 & H7 & H8 & H9 & H10).
  assert (Hh : h < length S) by (apply nth_error_Some; congruence).
  exists (fun l => dot coef' l + c')%Z. split.
  - constructor; [exact G| |].
    + split; [rewrite EI; discriminate|]. rewrite EI. split; [intros i [<-|[]]; exact Hh|]. intros ts F.
      inversion F as [|? v ? ts' (Li & Hi & Hs & Hk) F']; subst. inversion F'; subst. rewrite H1 in Hi. injection Hi as <-.
      apply HF; [congruence|]. intros l Hl. specialize (Hk l Hl). rewrite H5, H4 in Hk. now apply LN in Hk.
    + intros l ds d i Li Ti Hl Ed Hd Hi HLi HTi Hs. rewrite EI in Hi. destruct (input_index d) as [|j] eqn:Ej; [|destruct j; discriminate].
      injection Hi as <-. rewrite H1 in HLi. injection HLi as <-. rewrite H2 in HTi. injection HTi as <-. rewrite H6 in Hs.
      rewrite ES in Hl. specialize (HT l ds d Hl Ed Hd Ej Hs). specialize (H9 _ Hs). lia.
  - eexists L, _, _. rewrite evals_add by lia. rewrite EI. cbn [map].
    rewrite (nth_error_nth (evals S x) h x H3).
    replace (length S) with (length (evals S x)) at 3 by (apply evals_length; lia).
    rewrite HLen at 2. rewrite !nth_error_app2, !Nat.sub_diag by lia. cbn [nth_error].
    do 3 (split; [reflexivity|]). split; [exact EF|]. split; [exact ED|]. split; [exact ES|]. split; [exact HP|]. split; [exact HR|].
    split; [intros; lia|]. now apply HV.
Qed.

(** Adding a layer with two inputs of the same shape, reading both at the same location. *)
Lemma add_two {T} (N : number_type T) S Ts h k (t1 t2 : ktensor T) coef c (L : klayer) (t' : ktensor T) :
  lawful N -> good shape T0 S Ts -> computes N S Ts h t1 coef c -> computes N S Ts k t2 coef c ->
  tshape (kt t2) = tshape (kt t1) -> tshape (kt t') = tshape (kt t1) ->
  inbound (body L) = [h; k] -> lfeatures L = features t' -> ldtype L = tag N -> out_shape (body L) = tshape (kt t') ->
  (forall l, in_shape (tshape (kt t1)) l -> get_spatial_dependency (body L) l = Ok [dep0 l; {| input_index := 1; spatial_location := l |}]) ->
  (forall u1 u2, tshape (run (body L) [u1; u2]) = tshape u1) ->
  (forall u1 u2 l a1 a2, tval u1 l = wrap N a1 -> tval u2 l = wrap N a2 -> length a1 = features t1 -> length a2 = features t2 ->
     apply_single (body L) l [tval u1 l; tval u2 l] = Ok (tval (run (body L) [u1; u2]) l) /\
     exists a, tval (run (body L) [u1; u2]) l = wrap N a /\ length a = features t') ->
  (forall u1 u2 l, tval u1 l = wrap N (tval (kt t1) l) -> tval u2 l = wrap N (tval (kt t2) l) -> tval (run (body L) [u1; u2]) l = wrap N (tval (kt t') l)) ->
  exists T', good shape T0 (S ++ [L]) (Ts ++ [T']) /\ computes N (S ++ [L]) (Ts ++ [T']) (length S) t' coef c.
Proof.
  intros LN G HC1 HC2 ES2 ES' EI EF ED ES HD HSh HA HV. destruct (good_length _ _ _ _ G) as [HLen HPos].
  destruct HC1 as (Lh & Th & u & H1 & H2 & H3 & H4 & H5 & H6 & H7 & H8 & H9 & H10).
  destruct HC2 as (Lk & Tk & w & K1 & K2 & K3 & K4 & K5 & K6 & K7 & K8 & K9 & K10).
  assert (Hh : h < length S) by (apply nth_error_Some; congruence). assert (Hk : k < length S) by (apply nth_error_Some; congruence).
  exists (fun l => dot coef l + c)%Z. split.
  - constructor; [exact G| |].
    + split; [rewrite EI; discriminate|]. rewrite EI. split; [intros i [<-|[<-|[]]]; assumption|]. intros ts F.
      inversion F as [|? v1 ? ts' (L1 & Hi & Hs & Hk1) F']; subst. rewrite H1 in Hi. injection Hi as <-.
      inversion F' as [|? v2 ? ts'' (L2 & Hi2 & Hs2 & Hk2) F'']; subst. rewrite K1 in Hi2. injection Hi2 as <-. inversion F''; subst.
      assert (X : forall l, in_shape (tshape (kt t1)) l ->
         apply_single (body L) l [tval v1 l; tval v2 l] = Ok (tval (run (body L) [v1; v2]) l) /\
         exists a, tval (run (body L) [v1; v2]) l = wrap N a /\ length a = features t').
      { intros l Hl. rewrite Hs in Hk1. rewrite Hs2 in Hk2. rewrite H6, H5, H4 in Hk1. rewrite K6, K5, K4, ES2 in Hk2.
        specialize (Hk1 l Hl). specialize (Hk2 l Hl). apply LN in Hk1. apply LN in Hk2.
        destruct Hk1 as (a1 & A1 & B1). destruct Hk2 as (a2 & A2 & B2). eauto. }
      split; [rewrite HSh, Hs, H6, ES, ES'; reflexivity|]. rewrite ES, ES'. split.
      * intros l Hl. rewrite ED. apply LN. rewrite EF. apply X. exact Hl.
      * intros l Hl. rewrite HSh, Hs, H6 in Hl. exists [dep0 l; {| input_index := 1; spatial_location := l |}], [tval v1 l; tval v2 l].
        split; [now apply HD|]. split; [|now apply X]. constructor; [|constructor; [|constructor]].
        -- exists v1. cbn [input_index dep0 nth_error spatial_location]. rewrite Hs, H6. auto.
        -- exists v2. cbn [input_index nth_error spatial_location]. rewrite Hs2, K6, ES2. auto.
    + intros l ds d i Li Ti Hl Ed Hd Hi HLi HTi Hs. rewrite ES, ES' in Hl. rewrite (HD l Hl) in Ed. injection Ed as <-. rewrite EI in Hi.
      destruct Hd as [<-|[<-|[]]]; cbn in Hi; injection Hi as <-; cbn [spatial_location dep0] in *.
      * rewrite H2 in HTi. injection HTi as <-. now apply H9.
      * rewrite K2 in HTi. injection HTi as <-. apply K9. now rewrite ES2.
  - eexists L, _, _. rewrite evals_add by lia. rewrite EI. cbn [map].
    rewrite (nth_error_nth (evals S x) h x H3), (nth_error_nth (evals S x) k x K3).
    replace (length S) with (length (evals S x)) at 3 by (apply evals_length; lia).
    rewrite HLen at 2. rewrite !nth_error_app2, !Nat.sub_diag by lia. cbn [nth_error].
    do 3 (split; [reflexivity|]). split; [exact EF|]. split; [exact ED|]. split; [exact ES|]. rewrite ES'. split; [exact H7|]. split; [exact H8|].
    split; [intros; lia|]. split; [rewrite HSh, ES'; apply H10|]. intros l. apply HV; [apply H10|apply K10].
Qed.

(** A later state of the construction: nothing that was computed is lost. *)
Definition later (S : graph) (Ts : list (loc -> Z)) (S' : graph) (Ts' : list (loc -> Z)) : Prop :=
  good shape T0 S' Ts' /\ forall T (N : number_type T) h t coef c, computes N S Ts h t coef c -> computes N S' Ts' h t coef c.
Lemma later_refl S Ts : good shape T0 S Ts -> later S Ts S Ts.
Proof. intros G. split; auto. Qed.
Lemma later_trans S1 T1 S2 T2 S3 T3 : later S1 T1 S2 T2 -> later S2 T2 S3 T3 -> later S1 T1 S3 T3.
Proof. intros [_ A] [G B]. split; auto. Qed.

(** The construction succeeds exactly when the function does, with a layer that computes its result, or raises the same exception. *)
Definition builds {T} (N : number_type T) S Ts (r : res (graph * nat)) (f : res (ktensor T)) (coef : list Z) (c : Z) : Prop :=
  match f with
  | Ok t => exists S' Ts' h, r = Ok (S', h) /\ later S Ts S' Ts' /\ computes N S' Ts' h t coef c
  | Err e => r = Err e
  end.

Lemma builds_layer {T} (N : number_type T) S Ts L t coef c : good shape T0 S Ts ->
  (exists T', good shape T0 (S ++ [L]) (Ts ++ [T']) /\ computes N (S ++ [L]) (Ts ++ [T']) (length S) t coef c) ->
  builds N S Ts (call_layer S L) (Ok t) coef c.
Proof.
  intros G (T' & G' & HC). exists (S ++ [L]), (Ts ++ [T']), (length S). split; [reflexivity|]. split; [|exact HC].
  split; [exact G'|]. intros. now apply computes_app.
Qed.
Lemma builds_later {T} (N : number_type T) S Ts S' Ts' r f coef c : later S Ts S' Ts' -> builds N S' Ts' r f coef c -> builds N S Ts r f coef c.
Proof.
  intros HL. destruct f as [t|e]; cbn; [|auto]. intros (S2 & T2 & h & -> & L2 & HC). exists S2, T2, h. split; [reflexivity|].
  split; [eapply later_trans; eauto|exact HC].
Qed.
Lemma info_ok {T} (N : number_type T) S Ts h (t : ktensor T) coef c : computes N S Ts h t coef c ->
  exists L, info S h = Ok L /\ lfeatures L = features t /\ ldtype L = tag N /\ out_shape (body L) = tshape (kt t).
Proof. intros (L & Th & u & H1 & H2 & H3 & H4 & H5 & H6 & _). exists L. unfold info. rewrite H1. auto. Qed.
Lemma computes_shape {T} (N : number_type T) S Ts h (t : ktensor T) coef c : computes N S Ts h t coef c ->
  Forall (fun n => 0 < n) (tshape (kt t)) /\ length (tshape (kt t)) = length coef.
Proof. intros (L & Th & u & H1 & H2 & H3 & H4 & H5 & H6 & H7 & H8 & _). auto. Qed.

(** ** One to one *)
Lemma one_to_one_builds {T U} (N : number_type T) (N' : number_type U) S Ts h (t : ktensor T) coef c (f : value -> value) (g : list T -> list U) f' :
  lawful N -> lawful N' -> good shape T0 S Ts -> computes N S Ts h t coef c ->
  (forall a, f (wrap N a) = wrap N' (g a)) -> (forall a, length a = features t -> length (g a) = f') ->
  builds N' S Ts (one_to_one S h f f' (tag N')) (Ok {| kt := on_values g (kt t); features := f' |}) coef c.
Proof.
  intros LN LN' G HC Hf Hg. destruct (info_ok _ _ _ _ _ _ _ HC) as (L & EL & E1 & E2 & E3). unfold one_to_one. rewrite EL. cbn [bind].
  destruct (computes_shape _ _ _ _ _ _ _ HC) as [HP HR].
  apply builds_layer; [exact G|]. eapply (add_one N N'); try eassumption; try reflexivity; cbn [body out_shape inbound get_spatial_dependency apply_single run run1 kt on_values tshape lfeatures ldtype features].
  - intros u Eu Hu. rewrite E3. split; [exact Eu|]. rewrite stored_size. split.
    + intros l Hl. rewrite <- Eu in Hl. cbn [on_values tval]. destruct (Hu l Hl) as (a & -> & Ha). rewrite Hf. apply LN'. eauto.
    + intros l Hl. cbn [on_values tshape] in Hl. exists [dep0 l], [tval u l]. rewrite Eu in Hl. split; [now apply one_to_one_1|]. split; [|reflexivity].
      apply values_at_1. now rewrite Eu.
  - intros l ds d Hl Ed Hd Hi Hs. rewrite E3, stored_size, one_to_one_1 in Ed by exact Hl. injection Ed as <-. destruct Hd as [<-|[]]. cbn. lia.
  - intros u [Eu Hu]. split; [exact Eu|]. intros l. cbn [on_values tval]. rewrite Hu. apply Hf.
Qed.

Lemma activation_builds {T} (N : number_type T) S Ts h (t : ktensor T) coef c act : lawful N -> good shape T0 S Ts -> computes N S Ts h t coef c ->
  keeps_length act -> builds N S Ts (activation_layer N act S h) (Ok (activate act t)) coef c.
Proof.
  intros LN G HC HA. destruct (info_ok _ _ _ _ _ _ _ HC) as (L & EL & E1 & _). unfold activation_layer. rewrite EL. cbn [bind]. rewrite E1.
  apply (one_to_one_builds N N S Ts h t coef c _ act (features t)); try assumption; [intros a; f_equal; f_equal; apply LN|].
  intros a Ha. rewrite HA. exact Ha.
Qed.

(** ** Padding *)
Lemma dot_sub coef : forall l pads, length l = length coef -> length pads = length coef -> Forall2 (fun p i => p <= i) pads l ->
  dot coef (map2 Nat.sub l pads) = (dot coef l - dot coef pads)%Z.
Proof.
  induction coef as [|a coef IH]; intros [|i l] [|p pads] H1 H2 F; try discriminate; [reflexivity|].
  inversion F; subst. cbn [map2 dot]. rewrite IH by (cbn in *; auto; lia). rewrite Nat2Z.inj_sub by assumption. ring.
Qed.
Lemma outside_false p : forall sh l, length p = length sh -> length l = length sh -> padding_outside l p sh = false ->
  Forall2 (fun q i => q <= i) (map fst p) l.
Proof.
  induction p as [|[b a] p IH]; intros [|n sh] [|i l] H1 H2 H; try discriminate; [constructor|]. cbn [padding_outside] in H.
  destruct (Nat.ltb_spec i b); [discriminate|]. cbn [orb] in H. destruct (Nat.leb_spec n (i - b)); [discriminate|]. cbn [map fst]. constructor; [lia|].
  eapply IH; [| |exact H]; cbn in *; lia.
Qed.
Lemma padding_builds {T} (N : number_type T) S Ts h (t : ktensor T) coef c p : lawful N -> good shape T0 S Ts -> computes N S Ts h t coef c ->
  length (zero_pad_tuples p) = length coef ->
  builds N S Ts (padding_layer p S h) (Ok (zero_pad (arithmetic N) (zero_pad_tuples p) t)) coef (c - dot coef (map fst (zero_pad_tuples p))).
Proof.
  intros LN G HC HLp. destruct (info_ok _ _ _ _ _ _ _ HC) as (L & EL & E1 & E2 & E3). unfold padding_layer. rewrite EL. cbn [bind].
  destruct (computes_shape _ _ _ _ _ _ _ HC) as [HP HR]. rewrite E1, E2, E3.
  assert (HLt : length (zero_pad_tuples p) = length (tshape (kt t))) by congruence.
  destruct (zero_padding_agrees (repeat (zero (arithmetic N)) (features t)) p (kt t) HLt) as [ZS _].
  apply builds_layer; [exact G|]. eapply (add_one N N); try eassumption; try reflexivity;
    cbn [body out_shape inbound get_spatial_dependency apply_single run run1 kt zero_pad lfeatures ldtype features].
  - symmetry. exact ZS.
  - rewrite ZS. clear - HP. revert HP. generalize (tshape (kt t)). induction (zero_pad_tuples p) as [|q ps IH]; intros [|n sh] HP; cbn; try constructor.
    + inversion HP; subst. lia.
    + inversion HP; subst. now apply IH.
  - rewrite ZS, map2_length. lia.
  - intros u Eu Hu. destruct (zero_padding_agrees (zeros_of (tag N) (features t)) p u) as [ZS' ZA]; [congruence|].
    rewrite Eu in ZS', ZA. split; [exact ZS'|]. split; [|exact ZA]. intros l Hl. rewrite <- ZS' in Hl. destruct (ZA l Hl) as (ds & vs & _ & HVs & HA).
    destruct vs as [|v vs]; cbn [padding_apply] in HA; injection HA as <-; [apply zeros_of_kind|].
    inversion HVs as [|d ? ? ? (u' & Hu' & Hs & ->) _]; subst. destruct (input_index d) as [|[|j]]; [|discriminate|discriminate].
    injection Hu' as <-. apply LN. now apply Hu.
  - intros l ds d Hl Ed Hd Hi Hs. injection Ed as <-. unfold padding_dependencies in Hd.
    destruct (padding_outside l (zero_pad_tuples p) (tshape (kt t))) eqn:EO; [destruct Hd|]. destruct Hd as [<-|[]]. cbn [spatial_location dep0].
    assert (HLl : length l = length (tshape (kt t))).
    { apply in_shape_length in Hl. rewrite Hl, ZS, map2_length. lia. }
    rewrite dot_sub; [lia|congruence|rewrite map_length; congruence|]. eapply outside_false; [exact HLt|exact HLl|exact EO].
  - intros u [Eu Hu]. apply zero_padding_from_rel; [apply LN|split; assumption].
Qed.

(** ** Shifts *)
Lemma shift_builds {T} (N : number_type T) S Ts h (t : ktensor T) coef c d : lawful N -> good shape T0 S Ts -> computes N S Ts h t coef c ->
  d < length coef -> builds N S Ts (shift_klayer d S h) (Ok (shift_layer (arithmetic N) d t)) coef (c - nth d coef 0%Z).
Proof.
  intros LN G HC Hd. destruct (info_ok _ _ _ _ _ _ _ HC) as (L & EL & E1 & E2 & E3). unfold shift_klayer. rewrite EL. cbn [bind].
  destruct (computes_shape _ _ _ _ _ _ _ HC) as [HP HR]. rewrite E1, E2, E3.
  assert (HPd : 0 < nth d (tshape (kt t)) 0).
  { rewrite Forall_forall in HP. apply HP. apply nth_In. lia. }
  destruct (shift_agrees (repeat (zero (arithmetic N)) (features t)) d (kt t)) as [ZS _]; [lia|exact HPd|].
  apply builds_layer; [exact G|]. eapply (add_one N N); try eassumption; try reflexivity;
    cbn [body out_shape inbound get_spatial_dependency apply_single run run1 kt shift_layer lfeatures ldtype features].
  - symmetry. exact ZS.
  - now rewrite ZS.
  - now rewrite ZS.
  - intros u Eu Hu. destruct (shift_agrees (zeros_of (tag N) (features t)) d u) as [ZS' ZA]; [rewrite Eu; lia|now rewrite Eu|].
    rewrite Eu in ZS'. split; [exact ZS'|]. split; [|exact ZA]. intros l Hl. rewrite <- ZS' in Hl. destruct (ZA l Hl) as (ds & vs & _ & HVs & HA).
    unfold shift_apply in HA. revert HA. generalize (tval (shift (zeros_of (tag N) (features t)) d u) l). intros y HA. destruct (nth_error l d) as [[|i]|]; [injection HA as <-; apply zeros_of_kind| |discriminate].
    destruct vs as [|v vs]; cbn [first_value] in HA; [discriminate|]. injection HA as <-.
    inversion HVs as [|d' ? ? ? (u' & Hu' & Hs & ->) _]; subst. destruct (input_index d') as [|[|j]]; [|discriminate|discriminate].
    injection Hu' as <-. apply LN. now apply Hu.
  - intros l ds d' Hl Ed Hd' Hi Hs. unfold shift_dependencies in Ed. destruct (nth_error l d) as [[|i]|] eqn:En; [|injection Ed as <-|discriminate].
    + injection Ed as <-. destruct Hd'.
    + destruct Hd' as [<-|[]]. cbn [spatial_location dep0]. rewrite ZS in Hl. apply in_shape_length in Hl. rewrite HR in Hl. clear - En Hl Hd.
      assert (K : (dot coef (firstn d l ++ [i] ++ skipn (Datatypes.S d) l) = dot coef l - nth d coef 0)%Z); [|cbn [app skipn] in K; rewrite K; lia].
      revert d l En Hl Hd. induction coef as [|a coef IH]; intros d l En Hl Hd; [cbn in Hd; lia|]. destruct l as [|j l]; [destruct d; discriminate|].
      destruct d as [|d].
      * injection En as ->. cbn [firstn skipn app dot nth]. lia.
      * cbn [firstn skipn app dot nth]. cbn [app] in IH. rewrite IH by (cbn in *; auto; lia). lia.
  - intros u [Eu Hu]. apply shift_rel; [apply LN|split; assumption].
Qed.

(** ** Convolutions *)
Lemma dot_add coef : forall l m, length l = length coef -> length m = length coef -> dot coef (map2 Nat.add l m) = (dot coef l + dot coef m)%Z.
Proof.
  induction coef as [|a coef IH]; intros [|i l] [|j m] H1 H2; try discriminate; [reflexivity|].
  cbn [map2 dot]. rewrite IH by (cbn in *; lia). rewrite Nat2Z.inj_add. ring.
Qed.
Lemma mul_ones l : forall ks : list nat, length ks = length l -> map2 Nat.mul l (map (fun _ => 1) ks) = l.
Proof. induction l as [|i l IH]; intros [|k ks] H; try discriminate; [reflexivity|]. cbn [map map2]. rewrite IH by (cbn in H; lia). f_equal. lia. Qed.
Lemma conv_shape_length ns : forall ks ss ds, length ks = length ns -> length ss = length ns -> length ds = length ns ->
  length (conv_shape ns ks ss ds) = length ns.
Proof. induction ns as [|n ns IH]; intros [|k ks] [|s ss] [|d ds] H1 H2 H3; try discriminate; [reflexivity|]. cbn in *. now rewrite IH by lia. Qed.
Lemma not_zero_pos l : existsb (Nat.eqb 0) l = false -> Forall (fun n => 0 < n) l.
Proof.
  induction l as [|n l IH]; intros H; constructor; cbn [existsb] in H; apply orb_false_elim in H; destruct H as [A B].
  - destruct (Nat.eqb_spec 0 n); [discriminate|lia].
  - auto.
Qed.
Lemma conv_builds {T} (N : number_type T) S Ts h (t : ktensor T) coef c w f ks dil c' : lawful N -> good shape T0 S Ts -> computes N S Ts h t coef c ->
  length ks = length coef -> length dil = length coef ->
  (forall o, in_shape ks o -> (c + dot coef (map2 Nat.mul o dil) <= c')%Z) ->
  builds N S Ts (conv_klayer N w f ks dil S h) (conv_layer (arithmetic N) w f ks dil t) coef c'.
Proof.
  intros LN G HC HK HD HT. destruct (info_ok _ _ _ _ _ _ _ HC) as (L & EL & E1 & E2 & E3). unfold conv_klayer, conv_layer. rewrite EL. cbn [bind].
  destruct (computes_shape _ _ _ _ _ _ _ HC) as [HP HR]. rewrite E1, E3. cbn [conv_output tshape].
  set (cv := conv_of w ks dil (features t) f).
  set (os := conv_shape (tshape (kt t)) (kernel_size cv) (strides cv) (dilation_rate cv)).
  destruct (existsb (Nat.eqb 0) os) eqn:EZ; [reflexivity|]. apply not_zero_pos in EZ.
  assert (HOl : length os = length coef).
  { unfold os. rewrite conv_shape_length; [exact HR| | |]; cbn [cv conv_of kernel_size strides dilation_rate]; rewrite ?map_length; congruence. }
  apply builds_layer; [exact G|]. eapply (add_one N N); try eassumption; try reflexivity;
    cbn [body out_shape inbound get_spatial_dependency apply_single run run1 kt lfeatures ldtype features on_values tshape conv_output].
  - intros u Eu Hu. split; [cbn [tshape]; now rewrite Eu|]. split.
    + intros l Hl. apply LN. eexists. split; [reflexivity|]. cbn [on_values conv_output tval cv conv_of bias TensorModel.activation filters]. rewrite map2_length, !map_length, !range_length. cbn. lia.
    + set (g := on_values (unwrap N) u). fold cv.
      assert (HA : agrees [g] (fun l => Ok (conv_dependencies cv l)) (fun _ vs => Ok (conv_apply (zero (arithmetic N)) (plus (arithmetic N)) (times (arithmetic N)) cv vs))
                     (conv_output (zero (arithmetic N)) (plus (arithmetic N)) (times (arithmetic N)) cv g)).
      { apply conv_agrees; unfold g; cbn [on_values tshape tval cv conv_of kernel_size strides dilation_rate channels]; rewrite ?Eu, ?map_length; try congruence.
        - clear. induction ks; cbn; constructor; [lia|assumption].
        - intros l Hl. rewrite <- Eu in Hl. destruct (Hu l Hl) as (a & -> & Ha). rewrite (proj1 LN). exact Ha. }
      exact (agrees_map (unwrap N) (wrap N) [u] _ _ _ HA).
  - intros l ds d Hl Ed Hd Hi Hs. injection Ed as <-. unfold conv_dependencies in Hd. apply in_map_iff in Hd. destruct Hd as (o & <- & Ho).
    cbn [spatial_location dep0 cv conv_of kernel_size strides dilation_rate] in *. apply in_raster in Ho. fold os in Hl. apply in_shape_length in Hl.
    pose proof (in_shape_length _ _ Ho) as HoL. rewrite mul_ones by congruence. rewrite dot_add by (rewrite ?map2_length; lia). specialize (HT o Ho). lia.
  - intros u [Eu Hu]. split; [cbn [tshape on_values conv_output]; now rewrite Eu|]. intros l. cbn [on_values tval conv_output cv conv_of bias TensorModel.activation]. f_equal. f_equal.
    apply map_ext. intros k. f_equal. apply flat_map_ext. intros o. apply map_ext. intros ch. f_equal. rewrite Hu, (proj1 LN). reflexivity.
Qed.

(** ** Two inputs *)
Lemma same_shape_iff a b : same_shape a b = true <-> a = b.
Proof. unfold same_shape. destruct (list_eq_dec Nat.eq_dec a b); split; auto; discriminate. Qed.
Lemma add_builds {T} (N : number_type T) S Ts h k (t1 t2 : ktensor T) coef c : lawful N -> good shape T0 S Ts ->
  computes N S Ts h t1 coef c -> computes N S Ts k t2 coef c ->
  builds N S Ts (add_klayer N S h k) (add_layer (arithmetic N) t1 t2) coef c.
Proof.
  intros LN G HC1 HC2. destruct (info_ok _ _ _ _ _ _ _ HC1) as (L & EL & E1 & E2 & E3). destruct (info_ok _ _ _ _ _ _ _ HC2) as (L2 & EL2 & F1 & F2 & F3).
  unfold add_klayer, add_layer. rewrite EL, EL2. cbn [bind]. rewrite E1, E3, F1, F3.
  destruct (same_shape (tshape (kt t1)) (tshape (kt t2))) eqn:ES; [|reflexivity]. apply same_shape_iff in ES. cbn [andb].
  destruct (Nat.eqb_spec (features t1) (features t2)) as [EF|]; [|reflexivity].
  apply builds_layer; [exact G|]. eapply (add_two N S Ts h k t1 t2); try eassumption; try reflexivity;
    cbn [body out_shape inbound get_spatial_dependency apply_single run run2 kt lfeatures ldtype features tshape tval].
  - symmetry. exact ES.
  - intros l Hl. rewrite !stored_size, <- ES. now apply one_to_one_2.
  - intros u1 u2 l a1 a2 -> -> H1 H2. split; [reflexivity|]. eexists. split; [reflexivity|]. rewrite !(proj1 LN), map2_length. lia.
  - intros u1 u2 l -> ->. now rewrite !(proj1 LN).
Qed.

Lemma concat_builds S Ts h k (t1 t2 : ktensor R) coef c : lawful real_type -> good shape T0 S Ts ->
  computes real_type S Ts h t1 coef c -> computes real_type S Ts k t2 coef c ->
  builds real_type S Ts (concatenate_klayer S h k) (concatenate_features t1 t2) coef c.
Proof.
  intros LN G HC1 HC2. destruct (info_ok _ _ _ _ _ _ _ HC1) as (L & EL & E1 & E2 & E3). destruct (info_ok _ _ _ _ _ _ _ HC2) as (L2 & EL2 & F1 & F2 & F3).
  unfold concatenate_klayer, concatenate_features. rewrite EL, EL2. cbn [bind]. rewrite E1, E3, F1, F3.
  destruct (same_shape (tshape (kt t1)) (tshape (kt t2))) eqn:ES; [|reflexivity]. apply same_shape_iff in ES.
  apply builds_layer; [exact G|]. eapply (add_two real_type S Ts h k t1 t2); try eassumption; try reflexivity;
    cbn [body out_shape inbound get_spatial_dependency apply_single run run2 kt lfeatures ldtype features tshape tval].
  - symmetry. exact ES.
  - intros l Hl. unfold concat_dependencies. cbn [hd concat_sizes]. rewrite <- ES.
    assert (PI : forall (s : list nat) f, py_index (length (0 :: s ++ [f])) (-1) = Ok (length s + 1)).
    { intros s f. unfold py_index. cbn [length]. rewrite app_length. cbn [length]. cbn [Z.leb Z.compare andb].
      replace ((- Z.of_nat (Datatypes.S (length s + 1)) <=? -1) && (-1 <? 0))%Z with true by (symmetry; apply andb_true_intro; split; [apply Z.leb_le|apply Z.ltb_lt]; lia).
      f_equal. lia. }
    rewrite !PI. cbn [bind]. unfold concat_on_spatial_axis. reflexivity.
  - intros u1 u2 l a1 a2 -> -> H1 H2. split; [cbn [map real_type wrap unreal]; unfold concat_apply, concat_on_spatial_axis; cbn [Z.eqb orb negb bind concat]; now rewrite app_nil_r|].
    eexists. split; [reflexivity|]. cbn [real_type wrap unreal]. rewrite app_length. lia.
  - intros u1 u2 l -> ->. reflexivity.
Qed.

End Layers.
