(** Lemmas for AutodiffProps.v. *)
From Coq Require Import List Arith Bool Reals Lra Lia.
From Verif Require Import Base Cplx AutodiffModel AutodiffSpec.
Import ListNotations.
Local Open Scope nat_scope.

Lemma inner_plus_r a b c : inner a (b + c)%C = (inner a b + inner a c)%R.
Proof. unfold inner, Re, Im, Cplus. cbn. ring. Qed.
Lemma inner_plus_l a b c : inner (a + b)%C c = (inner a c + inner b c)%R.
Proof. unfold inner, Re, Im, Cplus. cbn. ring. Qed.
Lemma inner_0_r a : inner a C0 = 0%R.
Proof. unfold inner, Re, Im, C0. cbn. ring. Qed.
Lemma inner_0_l a : inner C0 a = 0%R.
Proof. unfold inner, Re, Im, C0. cbn. ring. Qed.
Lemma inner_comm a b : inner a b = inner b a.
Proof. unfold inner. ring. Qed.
Lemma inner_ext a b : (forall d, inner a d = inner b d) -> a = b.
Proof. intros E. pose proof (E C1) as E1. pose proof (E (0, 1)%R) as E2. unfold inner, Re, Im, C1 in *. cbn in *. apply C_eq; unfold Re, Im; lra. Qed.
Lemma inner_Csum {A} (f : A -> C) l d : inner (Csum f l) d = Rsum (fun a => inner (f a) d) l.
Proof. induction l as [|a l IH]; [apply inner_0_l|]. rewrite Csum_cons, Rsum_cons, inner_plus_l, IH. reflexivity. Qed.
Lemma inner_Csum_r {A} (f : A -> C) l d : inner d (Csum f l) = Rsum (fun a => inner d (f a)) l.
Proof. rewrite inner_comm, inner_Csum. apply Rsum_ext. intros; apply inner_comm. Qed.

Section Functions.
Context (H : nat -> nat -> C -> C) (F : nat -> nat -> R -> R).

(** * Values *)
Lemma perturbed_app env e g h : perturbed H F env e (g ++ h) =
  fold_left (fun v o => v ++ [(op_value H F env (fun i => nth i v C0) o + e (length v))%C]) h (perturbed H F env e g).
Proof. apply fold_left_app. Qed.

Lemma perturbed_snoc env e g o : perturbed H F env e (g ++ [o]) =
  perturbed H F env e g ++ [(op_value H F env (fun i => nth i (perturbed H F env e g) C0) o + e (length (perturbed H F env e g)))%C].
Proof. now rewrite perturbed_app. Qed.

Lemma perturbed_length env e g : length (perturbed H F env e g) = length g.
Proof. induction g as [|o g IH] using rev_ind; [reflexivity|]. rewrite perturbed_snoc, !app_length, IH. reflexivity. Qed.

Lemma perturbed_prefix env e g h i : i < length g -> nth i (perturbed H F env e (g ++ h)) C0 = nth i (perturbed H F env e g) C0.
Proof.
  intros Hi. induction h as [|o h IH] using rev_ind; [now rewrite app_nil_r|].
  rewrite app_assoc, perturbed_snoc, app_nth1; [exact IH|]. rewrite perturbed_length, app_length. lia.
Qed.

Lemma op_value_ext env V W o : (forall a, In a (arguments o) -> V a = W a) -> op_value H F env V o = op_value H F env W o.
Proof. intros E. destruct o; cbn [op_value arguments In] in *; rewrite ?E by auto; reflexivity. Qed.

Lemma perturbed_equation env e h i : well_formed h -> i < length h ->
  nth i (perturbed H F env e h) C0 = (op_value H F env (fun j => nth j (perturbed H F env e h) C0) (nth i h (Const C0)) + e i)%C.
Proof.
  intros W Hi. pose proof (W i Hi) as Wi. rewrite Forall_forall in Wi.
  assert (E : h = firstn i h ++ nth i h (Const C0) :: skipn (S i) h).
  { rewrite <- (firstn_skipn i h) at 1. f_equal. clear W Wi. revert i Hi. induction h as [|o h IH]; intros [|i] Hi; cbn in Hi; try lia; [reflexivity|]. cbn. apply IH. lia. }
  set (o := nth i h (Const C0)) in *. set (g := firstn i h) in *.
  assert (L : length g = i) by (subst g; rewrite firstn_length; lia).
  assert (P : forall j, j < i -> nth j (perturbed H F env e h) C0 = nth j (perturbed H F env e g) C0).
  { intros j Hj. rewrite E. apply perturbed_prefix. lia. }
  rewrite (op_value_ext env _ (fun j => nth j (perturbed H F env e g) C0)) by (intros a Ha; apply P; auto).
  rewrite E at 1. change (o :: skipn (S i) h) with ([o] ++ skipn (S i) h). rewrite app_assoc, perturbed_prefix by (rewrite app_length; cbn; lia).
  rewrite perturbed_snoc, app_nth2; rewrite perturbed_length, L; [|lia]. rewrite Nat.sub_diag. reflexivity.
Qed.

Lemma evaluate_perturbed env h : evaluate H F env h = perturbed H F env (fun _ => C0) h.
Proof.
  induction h as [|o h IH] using rev_ind; [reflexivity|]. rewrite perturbed_snoc, <- IH. unfold evaluate at 1. rewrite fold_left_app. cbn [fold_left]. fold (evaluate H F env h).
  do 2 f_equal. ring.
Qed.

Lemma evaluate_length env h : length (evaluate H F env h) = length h.
Proof. rewrite evaluate_perturbed. apply perturbed_length. Qed.

Lemma nth_prefix (g h : graph) i : i < length g -> nth i (g ++ h) (Const C0) = nth i g (Const C0).
Proof. intros. now apply app_nth1. Qed.

(** * Tangents: the chain rule forwards *)
Definition op_tangent (V T : nat -> C) (o : op) : C :=
  match o with
  | Input _ | Const _ => C0
  | Add a b => (T a + T b)%C
  | Mul a b => (V a * T b + T a * V b)%C
  | Conj a => Cconj (T a)
  | RealPart a => (Re (T a), 0%R)
  | ImagPart a => (Im (T a), 0%R)
  | MakeComplex a b => (Re (T a), Re (T b))
  | Holomorphic f k a => (H f (S k) (V a) * T a)%C
  | RealFunction f k a => ((F f (S k) (Re (V a)) * Re (T a))%R, 0%R)
  end.
Definition tangents (V delta : nat -> C) (h : graph) : list C :=
  fold_left (fun t o => t ++ [(op_tangent V (fun i => nth i t C0) o + delta (length t))%C]) h [].

Lemma tangents_snoc V delta g o : tangents V delta (g ++ [o]) =
  tangents V delta g ++ [(op_tangent V (fun i => nth i (tangents V delta g) C0) o + delta (length (tangents V delta g)))%C].
Proof. unfold tangents. now rewrite fold_left_app. Qed.
Lemma tangents_length V delta g : length (tangents V delta g) = length g.
Proof. induction g as [|o g IH] using rev_ind; [reflexivity|]. rewrite tangents_snoc, !app_length, IH. reflexivity. Qed.
Lemma tangents_prefix V delta g h i : i < length g -> nth i (tangents V delta (g ++ h)) C0 = nth i (tangents V delta g) C0.
Proof.
  intros Hi. induction h as [|o h IH] using rev_ind; [now rewrite app_nil_r|].
  rewrite app_assoc, tangents_snoc, app_nth1; [exact IH|]. rewrite tangents_length, app_length. lia.
Qed.
Lemma op_tangent_ext V W T U o : (forall a, In a (arguments o) -> V a = W a) -> (forall a, In a (arguments o) -> T a = U a) -> op_tangent V T o = op_tangent W U o.
Proof. intros E1 E2. destruct o; cbn [op_tangent arguments In] in *; rewrite ?E1, ?E2 by auto; reflexivity. Qed.
Lemma tangents_equation V delta h i : well_formed h -> i < length h ->
  nth i (tangents V delta h) C0 = (op_tangent V (fun j => nth j (tangents V delta h) C0) (nth i h (Const C0)) + delta i)%C.
Proof.
  intros W Hi. pose proof (W i Hi) as Wi. rewrite Forall_forall in Wi.
  assert (E : h = firstn i h ++ nth i h (Const C0) :: skipn (S i) h).
  { rewrite <- (firstn_skipn i h) at 1. f_equal. clear W Wi. revert i Hi. induction h as [|o h IH]; intros [|i] Hi; cbn in Hi; try lia; [reflexivity|]. cbn. apply IH. lia. }
  set (o := nth i h (Const C0)) in *. set (g := firstn i h) in *.
  assert (L : length g = i) by (subst g; rewrite firstn_length; lia).
  assert (P : forall j, j < i -> nth j (tangents V delta h) C0 = nth j (tangents V delta g) C0).
  { intros j Hj. rewrite E. apply tangents_prefix. lia. }
  rewrite (op_tangent_ext V V _ (fun j => nth j (tangents V delta g) C0)) by (auto; intros a Ha; apply P; auto).
  rewrite E at 1. change (o :: skipn (S i) h) with ([o] ++ skipn (S i) h). rewrite app_assoc, tangents_prefix by (rewrite app_length; cbn; lia).
  rewrite tangents_snoc, app_nth2; rewrite tangents_length, L; [|lia]. rewrite Nat.sub_diag. reflexivity.
Qed.

(** * Reverse mode is the adjoint of forward mode *)
Definition pairing (V : nat -> C) (X : nat -> C) (l : list (nat * nat)) : R := Rsum (fun p => inner (V (snd p)) (X (fst p))) l.

(** [h] holds the nodes of [g] from position [n] on. *)
Definition holds (h : graph) (n : nat) (g : list op) : Prop := forall j, j < length g -> nth (n + j) h (Const C0) = nth j g (Const C0) /\ n + j < length h.

Lemma holds_app h n g1 g2 : holds h n (g1 ++ g2) -> holds h n g1 /\ holds h (n + length g1) g2.
Proof.
  intros Hh. split; intros j Hj.
  - destruct (Hh j) as [E L]; [rewrite app_length; lia|]. split; [|exact L]. rewrite E. now apply app_nth1.
  - destruct (Hh (length g1 + j)) as [E L]; [rewrite app_length; lia|]. rewrite Nat.add_assoc in *. split; [|exact L]. rewrite E, app_nth2 by lia. f_equal. lia.
Qed.

(** The equations of the values from node [n0] on. *)
Definition unperturbed (env V : nat -> C) (h : graph) (n0 : nat) : Prop :=
  forall j, n0 <= j -> j < length h -> V j = op_value H F env V (nth j h (Const C0)).

Lemma holds_value env V h n0 n g j : unperturbed env V h n0 -> holds h n g -> n0 <= n -> j < length g -> V (n + j) = op_value H F env V (nth j g (Const C0)).
Proof. intros U Hh L Hj. destruct (Hh j Hj) as [E L2]. rewrite <- E. apply U; lia. Qed.

Lemma add_n_ok env V h n0 : unperturbed env V h n0 -> forall rest n first ops total, n0 <= n -> add_n n first rest = (ops, total) -> holds h n ops ->
  V total = Csum V (first :: rest).
Proof.
  intros U. induction rest as [|r t IH]; intros n first ops total L E Hh; cbn [add_n] in E.
  - injection E as <- <-. rewrite Csum_cons. unfold Csum. cbn. ring.
  - destruct (add_n (S n) n t) as [ops' total'] eqn:E'. injection E as <- <-.
    pose proof (holds_value env V h n0 n _ 0 U Hh L ltac:(cbn; lia)) as Vn. cbn [nth op_value] in Vn. rewrite Nat.add_0_r in Vn.
    change (Add first r :: ops') with ([Add first r] ++ ops') in Hh. apply holds_app in Hh. destruct Hh as [_ Hh]. cbn [length] in Hh. rewrite Nat.add_1_r in Hh.
    rewrite (IH (S n) n ops' total' ltac:(lia) E' Hh), !Csum_cons, Vn. ring.
Qed.

Lemma op_gradient_ok env V T h n0 o g n ops contributions : unperturbed env V h n0 -> n0 <= n -> op_gradient o g n = (ops, contributions) -> holds h n ops ->
  inner (V g) (op_tangent V T o) = pairing V T contributions.
Proof.
  intros U L E Hh.
  assert (P : forall j, j < length ops -> V (n + j) = op_value H F env V (nth j ops (Const C0))) by (intros j Hj; eapply holds_value; eauto).
  destruct o; cbn [op_gradient] in E; injection E as <- <-; unfold pairing, Rsum; cbn [fold_right fst snd op_tangent];
    try (pose proof (P 0 ltac:(cbn; lia)) as Q0; cbn [nth op_value] in Q0; rewrite Nat.add_0_r in Q0);
    try (pose proof (P 1 ltac:(cbn; lia)) as Q1; cbn [nth op_value] in Q1);
    try (pose proof (P 2 ltac:(cbn; lia)) as Q2; cbn [nth op_value] in Q2);
    try (pose proof (P 3 ltac:(cbn; lia)) as Q3; cbn [nth op_value] in Q3); clear P;
    rewrite ?Q3, ?Q2, ?Q1, ?Q0; unfold inner, Re, Im, Cplus, Cmult, Cconj, C0; cbn; ring.
Qed.

Lemma pairing_app V X l1 l2 : pairing V X (l1 ++ l2) = (pairing V X l1 + pairing V X l2)%R.
Proof. apply Rsum_app. Qed.
Lemma pairing_cons V X p l : pairing V X (p :: l) = (inner (V (snd p)) (X (fst p)) + pairing V X l)%R.
Proof. reflexivity. Qed.

Lemma pairing_below V T pending i :
  pairing V T (filter (fun p => fst p <? S i) pending) =
  (pairing V T (filter (fun p => fst p <? i) pending) + inner (Csum V (map snd (filter (fun p => (fst p =? i)%nat) pending))) (T i))%R.
Proof.
  induction pending as [|[t g] l IH]; cbn [filter map fst]; [unfold pairing, Rsum, Csum; cbn; rewrite inner_0_l; ring|].
  destruct (Nat.ltb_spec t (S i)), (Nat.ltb_spec t i), (Nat.eqb_spec t i); try lia; cbn [map fst snd]; rewrite ?pairing_cons, ?Csum_cons, ?inner_plus_l, IH; cbn [fst snd]; subst; ring.
Qed.

Lemma op_gradient_arguments o g n ops contributions : op_gradient o g n = (ops, contributions) -> map fst contributions = arguments o.
Proof. destruct o; cbn; intros E; injection E as <- <-; reflexivity. Qed.

Lemma backward_extends m : forall pending found h h' found', backward m pending found h = (h', found') -> exists k, h' = h ++ k.
Proof.
  induction m as [|i IH]; intros pending found h h' found' E; cbn [backward] in E.
  - injection E as <- <-. exists []. now rewrite app_nil_r.
  - destruct (map snd (filter _ pending)) as [|g more]; [eapply IH; eauto|].
    destruct (add_n (length h) g more) as [sums total]. destruct (op_gradient _ total _) as [ops contributions].
    apply IH in E. destruct E as [k ->]. exists ((sums ++ ops) ++ k). now rewrite <- app_assoc.
Qed.

Lemma filter_all {A} (f : A -> bool) l : Forall (fun a => f a = true) l -> filter f l = l.
Proof. induction 1 as [|a l Ha F' IH]; cbn; [reflexivity|]. now rewrite Ha, IH. Qed.

(** What is known about the nodes above [m] becomes what is known about all nodes. *)
Lemma backward_adjoint env V T delta hf h0 : unperturbed env V hf (length h0) -> well_formed h0 ->
  (forall i, i < length h0 -> T i = (op_tangent V T (nth i h0 (Const C0)) + delta i)%C) ->
  forall m pending found h h' found', m <= length h0 -> (exists k, h = h0 ++ k) -> (exists k, hf = h' ++ k) ->
  backward m pending found h = (h', found') ->
  (pairing V T (filter (fun p => (fst p <? m)%nat) pending) + pairing V delta found)%R = pairing V delta found'.
Proof.
  intros U W TE. induction m as [|i IH]; intros pending found h h' found' Hm Hh Hf E; cbn [backward] in E.
  - injection E as <- <-. replace (filter (fun p => fst p <? 0) pending) with (@nil (nat * nat)) by (induction pending; auto).
    unfold pairing at 1. unfold Rsum. cbn. ring.
  - rewrite pairing_below. destruct (map snd (filter _ pending)) as [|g more] eqn:EM.
    + rewrite <- (IH pending found h h' found' ltac:(lia) Hh Hf E). unfold Csum. cbn. rewrite inner_0_l. ring.
    + destruct (add_n (length h) g more) as [sums total] eqn:EA. destruct (op_gradient _ total _) as [ops contributions] eqn:EO.
      destruct Hh as [k0 ->].
      pose proof (backward_extends _ _ _ _ _ _ E) as [k1 E1]. destruct Hf as [k2 E2].
      assert (Hs : holds hf (length (h0 ++ k0)) (sums ++ ops)).
      { rewrite E2, E1. intros j Hj. split; [|rewrite !app_length in *; lia]. rewrite <- !app_assoc. rewrite (app_assoc h0). rewrite app_nth2 by lia.
        replace (length (h0 ++ k0) + j - length (h0 ++ k0)) with j by lia. rewrite (app_assoc sums), app_nth1 by exact Hj. reflexivity. }
      apply holds_app in Hs. destruct Hs as [Hs1 Hs2].
      assert (VT : V total = Csum V (g :: more)) by (apply (add_n_ok env V hf (length h0) U more (length (h0 ++ k0)) g sums total); [rewrite app_length; lia|exact EA|exact Hs1]).
      rewrite nth_prefix in EO by lia.
      rewrite <- (IH (contributions ++ pending) ((i, total) :: found) ((h0 ++ k0) ++ sums ++ ops) h' found' ltac:(lia) ltac:(exists (k0 ++ sums ++ ops); now rewrite <- app_assoc) ltac:(exists k2; exact E2) E).
      rewrite filter_app, pairing_app. rewrite (filter_all _ contributions).
      2: { apply Forall_forall. intros p Hp. apply Nat.ltb_lt. apply op_gradient_arguments in EO. pose proof (W i ltac:(lia)) as Wi. rewrite Forall_forall in Wi. apply Wi.
           rewrite <- EO. now apply in_map. }
      rewrite <- (op_gradient_ok env V T hf (length h0) _ total (length (h0 ++ k0) + length sums) ops contributions U ltac:(rewrite app_length; lia) EO Hs2).
      rewrite pairing_cons. cbn [fst snd]. rewrite VT, (TE i ltac:(lia)), inner_plus_r. ring.
Qed.

(** * Forward mode is the derivative *)
Lemma velocity_ext c c' w : (forall t, c t = c' t) -> velocity c w -> velocity c' w.
Proof. intros E [A B]. split; (eapply derivable_pt_lim_ext; [|eassumption]); intros t; cbn; now rewrite E. Qed.
Lemma velocity_const z : velocity (fun _ => z) C0.
Proof. split; apply derivable_pt_lim_const. Qed.
Lemma velocity_plus c c' w w' : velocity c w -> velocity c' w' -> velocity (fun t => (c t + c' t)%C) (w + w')%C.
Proof. intros [A B] [A' B']. split; [apply (derivable_pt_lim_plus _ _ _ _ _ A A')|apply (derivable_pt_lim_plus _ _ _ _ _ B B')]. Qed.
Lemma velocity_mult c c' w w' : velocity c w -> velocity c' w' -> velocity (fun t => (c t * c' t)%C) (c 0%R * w' + w * c' 0%R)%C.
Proof.
  intros [A B] [A' B']. split.
  - eapply derivable_pt_lim_ext; [|replace (Re _) with ((Re w * Re (c' 0%R) + Re (c 0%R) * Re w') - (Im w * Im (c' 0%R) + Im (c 0%R) * Im w'))%R by (unfold Re, Im; cbn; ring);
      exact (derivable_pt_lim_minus _ _ _ _ _ (derivable_pt_lim_mult _ _ _ _ _ A A') (derivable_pt_lim_mult _ _ _ _ _ B B'))].
    intros t. reflexivity.
  - eapply derivable_pt_lim_ext; [|replace (Im _) with ((Re w * Im (c' 0%R) + Re (c 0%R) * Im w') + (Im w * Re (c' 0%R) + Im (c 0%R) * Re w'))%R by (unfold Re, Im; cbn; ring);
      exact (derivable_pt_lim_plus _ _ _ _ _ (derivable_pt_lim_mult _ _ _ _ _ A B') (derivable_pt_lim_mult _ _ _ _ _ B A'))].
    intros t. reflexivity.
Qed.
Lemma velocity_line z w : velocity (fun t => (z + RtoC t * w)%C) w.
Proof.
  split.
  - eapply derivable_pt_lim_ext; [|replace (Re w) with (0 + Re w * 1)%R by ring;
      exact (derivable_pt_lim_plus _ _ _ _ _ (derivable_pt_lim_const (Re z) 0) (derivable_pt_lim_scal id (Re w) _ _ (derivable_pt_lim_id 0)))].
    intros t. unfold plus_fct, mult_real_fct, fct_cte, id, Re. cbn. ring.
  - eapply derivable_pt_lim_ext; [|replace (Im w) with (0 + Im w * 1)%R by ring;
      exact (derivable_pt_lim_plus _ _ _ _ _ (derivable_pt_lim_const (Im z) 0) (derivable_pt_lim_scal id (Im w) _ _ (derivable_pt_lim_id 0)))].
    intros t. unfold plus_fct, mult_real_fct, fct_cte, id, Im. cbn. ring.
Qed.
Lemma velocity_unique c w w' : velocity c w -> velocity c w' -> w = w'.
Proof. intros [A B] [A' B']. apply C_eq; eapply uniqueness_limite; eassumption. Qed.

(** A function has a derivative, or its argument does not move. *)
Definition smooth_or_still (h : graph) (v : R -> list C) : Prop :=
  forall i, i < length h ->
    match nth i h (Const C0) with
    | Holomorphic f k a => derivative_at (H f k) (nth a (v 0%R) C0) (H f (S k) (nth a (v 0%R) C0)) \/ forall t, nth a (v t) C0 = nth a (v 0%R) C0
    | RealFunction f k a => derivable_pt_lim (F f k) (Re (nth a (v 0%R) C0)) (F f (S k) (Re (nth a (v 0%R) C0))) \/ forall t, nth a (v t) C0 = nth a (v 0%R) C0
    | _ => True
    end.

Lemma perturbed_ext env e e' h : (forall i, e i = e' i) -> perturbed H F env e h = perturbed H F env e' h.
Proof. intros E. induction h as [|o h IH] using rev_ind; [reflexivity|]. now rewrite !perturbed_snoc, IH, E. Qed.

Lemma forward_derivative env e delta h : well_formed h ->
  let v t := perturbed H F env (fun j => (e j + RtoC t * delta j)%C) h in
  smooth_or_still h v ->
  forall i, i < length h -> velocity (fun t => nth i (v t) C0) (nth i (tangents (fun j => nth j (v 0%R) C0) delta h) C0).
Proof.
  intros W v S i. induction i as [i IH] using lt_wf_ind. intros Hi.
  rewrite (tangents_equation _ _ _ _ W Hi). set (T := fun j => nth j (tangents (fun j => nth j (v 0%R) C0) delta h) C0).
  apply (velocity_ext (fun t => (op_value H F env (fun j => nth j (v t) C0) (nth i h (Const C0)) + (e i + RtoC t * delta i))%C)).
  { intros t. symmetry. exact (perturbed_equation env _ h i W Hi). }
  apply velocity_plus; [|apply velocity_line].
  pose proof (W i Hi) as Wi. rewrite Forall_forall in Wi. pose proof (S i Hi) as Si.
  assert (D : forall a, In a (arguments (nth i h (Const C0))) -> velocity (fun t => nth a (v t) C0) (T a)).
  { intros a Ha. apply IH; [auto|]. specialize (Wi a Ha). lia. }
  destruct (nth i h (Const C0)) as [j|c|a b|a b|a|a|a|a b|f k a|f k a] eqn:EO; cbn [arguments op_value op_tangent In] in *.
  - apply velocity_const.
  - apply velocity_const.
  - apply velocity_plus; auto.
  - apply (velocity_mult (fun t => nth a (v t) C0) (fun t => nth b (v t) C0)); auto.
  - destruct (D a ltac:(auto)) as [A B]. split; [exact A|]. cbn. apply (derivable_pt_lim_opp _ _ _ B).
  - destruct (D a ltac:(auto)) as [A B]. split; [exact A|]. cbn. apply derivable_pt_lim_const.
  - destruct (D a ltac:(auto)) as [A B]. split; [exact B|]. cbn. apply derivable_pt_lim_const.
  - destruct (D a ltac:(auto)) as [A _], (D b ltac:(auto)) as [B _]. split; [exact A|exact B].
  - destruct Si as [Si|Si]; [apply (Si (fun t => nth a (v t) C0)); auto|].
    assert (Ta : T a = C0) by (apply (velocity_unique (fun t => nth a (v t) C0)); [auto|]; apply (velocity_ext (fun _ => nth a (v 0%R) C0)); [intros; symmetry; apply Si|apply velocity_const]).
    rewrite Ta. replace (H f (Datatypes.S k) (nth a (v 0%R) C0) * C0)%C with C0 by ring. apply (velocity_ext (fun _ => H f k (nth a (v 0%R) C0))); [|apply velocity_const].
    intros t. now rewrite (Si t).
  - destruct Si as [Si|Si].
    + destruct (D a ltac:(auto)) as [A _]. split; cbn; [|apply derivable_pt_lim_const]. exact (derivable_pt_lim_comp (fun t => Re (nth a (v t) C0)) (F f k) 0 _ _ A Si).
    + assert (Ta : T a = C0) by (apply (velocity_unique (fun t => nth a (v t) C0)); [auto|]; apply (velocity_ext (fun _ => nth a (v 0%R) C0)); [intros; symmetry; apply Si|apply velocity_const]).
      rewrite Ta. apply (velocity_ext (fun _ => (F f k (Re (nth a (v 0%R) C0)), 0%R))); [intros t; now rewrite (Si t)|].
      match goal with |- velocity _ ?w => replace w with C0 by (unfold C0, Re; cbn; f_equal; ring) end. apply velocity_const.
Qed.

(** * Extended graphs *)
Definition reads_below (n : nat) (g : list op) : Prop := forall j, j < length g -> Forall (fun a => a < n + j) (arguments (nth j g (Const C0))).
Lemma well_formed_app h g : well_formed h -> reads_below (length h) g -> well_formed (h ++ g).
Proof.
  intros W B i Hi. rewrite app_length in Hi. destruct (Nat.lt_ge_cases i (length h)) as [L|L].
  - rewrite app_nth1 by exact L. now apply W.
  - rewrite app_nth2 by exact L. specialize (B (i - length h) ltac:(lia)). eapply Forall_impl; [|exact B]. cbn. intros; lia.
Qed.
Lemma reads_below_cons n o g : Forall (fun a => a < n) (arguments o) -> reads_below (S n) g -> reads_below n (o :: g).
Proof.
  intros A B [|j] Hj; cbn [nth] in *; [eapply Forall_impl; [|exact A]; cbn; intros; lia|]. cbn in Hj. specialize (B j ltac:(lia)). eapply Forall_impl; [|exact B]. cbn. intros; lia.
Qed.
Lemma reads_below_nil n : reads_below n [].
Proof. intros j Hj. cbn in Hj. lia. Qed.
Lemma reads_below_app n g1 g2 : reads_below n g1 -> reads_below (n + length g1) g2 -> reads_below n (g1 ++ g2).
Proof.
  revert n. induction g1 as [|o g1 IH]; intros n A B; cbn [app length] in *; [now rewrite Nat.add_0_r in B|].
  apply reads_below_cons.
  - specialize (A 0 ltac:(cbn; lia)). cbn [nth] in A. now rewrite Nat.add_0_r in A.
  - apply IH; [|now rewrite Nat.add_succ_comm]. intros j Hj. specialize (A (S j) ltac:(cbn; lia)). cbn [nth] in A. now rewrite <- Nat.add_succ_comm in A.
Qed.

Lemma add_n_reads rest : forall n first ops total, first < n -> Forall (fun a => a < n) rest -> add_n n first rest = (ops, total) ->
  reads_below n ops /\ total < n + length ops.
Proof.
  induction rest as [|r t IH]; intros n first ops total L1 L2 E; cbn [add_n] in E.
  - injection E as <- <-. cbn. split; [apply reads_below_nil|lia].
  - destruct (add_n (S n) n t) as [ops' total'] eqn:E'. injection E as <- <-. inversion L2 as [|? ? Lr Lt]; subst.
    destruct (IH (S n) n ops' total' ltac:(lia) ltac:(eapply Forall_impl; [|exact Lt]; cbn; intros; lia) E') as [A B].
    cbn [length]. split; [|lia]. apply reads_below_cons; [|exact A]. repeat constructor; assumption.
Qed.

Lemma op_gradient_reads o g n ops contributions : g < n -> Forall (fun a => a < n) (arguments o) -> op_gradient o g n = (ops, contributions) ->
  reads_below n ops /\ Forall (fun p => snd p < n + length ops) contributions.
Proof.
  intros L A E. destruct o; cbn [op_gradient arguments] in *; injection E as <- <-;
    repeat match goal with X : Forall _ (_ :: _) |- _ => inversion X; clear X; subst end; cbn [length];
    (split; [repeat (apply reads_below_cons; [cbn [arguments]; repeat (apply Forall_cons; [cbn; lia|]); apply Forall_nil|]); apply reads_below_nil|repeat (apply Forall_cons; [cbn; lia|]); apply Forall_nil]).
Qed.

Lemma backward_ok m : forall pending found h h' found', m <= length h -> well_formed h -> Forall (fun p => snd p < length h) pending ->
  Forall (fun p => m <= fst p /\ snd p < length h) found -> NoDup (map fst found) ->
  backward m pending found h = (h', found') ->
  well_formed h' /\ Forall (fun p => snd p < length h') found' /\ NoDup (map fst found').
Proof.
  induction m as [|i IH]; intros pending found h h' found' Hm W P Q N E; cbn [backward] in E.
  - injection E as <- <-. split; [exact W|]. split; [eapply Forall_impl; [|exact Q]; cbn; tauto|exact N].
  - destruct (map snd (filter _ pending)) as [|g more] eqn:EM.
    + apply (IH pending found h h' found'); auto; [lia|]. eapply Forall_impl; [|exact Q]. cbn. lia.
    + destruct (add_n (length h) g more) as [sums total] eqn:EA. destruct (op_gradient _ total _) as [ops contributions] eqn:EO.
      assert (B : Forall (fun a => a < length h) (g :: more)).
      { rewrite <- EM. apply Forall_forall. intros a Ha. apply in_map_iff in Ha. destruct Ha as [p [<- Hp]]. apply filter_In in Hp. rewrite Forall_forall in P. now apply P. }
      inversion B as [|? ? B1 B2]; subst. destruct (add_n_reads more (length h) g sums total B1 B2 EA) as [A1 A2].
      assert (Wi : Forall (fun a => a < length h + length sums) (arguments (nth i h (Const C0)))).
      { eapply Forall_impl; [|exact (W i ltac:(lia))]. cbn. lia. }
      destruct (op_gradient_reads _ total (length h + length sums) ops contributions A2 Wi EO) as [A3 A4].
      apply (IH (contributions ++ pending) ((i, total) :: found) (h ++ sums ++ ops)) in E; [exact E|..].
      * rewrite app_length. lia.
      * apply well_formed_app; [exact W|]. now apply reads_below_app.
      * apply Forall_app. rewrite !app_length, Nat.add_assoc. split; [exact A4|]. eapply Forall_impl; [|exact P]. cbn. lia.
      * constructor; [cbn; rewrite !app_length; lia|]. eapply Forall_impl; [|exact Q]. cbn. rewrite !app_length. lia.
      * cbn. constructor; [|exact N]. intros Hi. apply in_map_iff in Hi. destruct Hi as [p [E1 Hp]]. rewrite Forall_forall in Q. specialize (Q p Hp). lia.
Qed.

Lemma lookup_below x l n g : Forall (fun p => snd p < n) l -> lookup x l = Some g -> g < n.
Proof. induction 1 as [|[i k] l Hp F' IH]; cbn; [discriminate|]. destruct (i =? x); [intros E; now injection E as <-|exact IH]. Qed.

Definition none_or_in (h : graph) (l : list (option nat)) : Prop := Forall (fun g => match g with Some i => i < length h | None => True end) l.

Lemma in_combine_snd {A B} (l : list A) (l' : list B) p : In p (combine l l') -> In (snd p) l'.
Proof. destruct p. apply in_combine_r. Qed.

Lemma gradients_ok h ys xs gys h' grads : well_formed h -> in_graph h gys -> gradients h ys xs gys = (h', grads) ->
  well_formed h' /\ none_or_in h' grads /\ (exists k, h' = h ++ k) /\ length grads = length xs.
Proof.
  unfold gradients. intros W G E. destruct (backward (length h) (combine ys gys) [] h) as [hb found] eqn:EB. injection E as <- <-.
  destruct (backward_ok _ _ _ _ _ _ (le_n _) W ltac:(apply Forall_forall; intros p Hp; unfold in_graph in G; rewrite Forall_forall in G; apply G; eapply in_combine_snd; eauto) (Forall_nil _) (NoDup_nil _) EB)
    as [W' [Fd _]].
  split; [exact W'|]. split; [|split; [eapply backward_extends; eauto|now rewrite map_length]].
  apply Forall_forall. intros o Ho. apply in_map_iff in Ho. destruct Ho as [x [<- _]]. destruct (lookup x found) eqn:EL; [|exact Logic.I]. eapply lookup_below; eauto.
Qed.

Lemma along_cons p l i : along (p :: l) i = ((if (fst p =? i)%nat then snd p else C0) + along l i)%C.
Proof. unfold along. cbn [filter]. destruct (fst p =? i); [reflexivity|ring]. Qed.

Definition value_of (V : nat -> C) (g : option nat) : C := match g with Some i => V i | None => C0 end.

Lemma pairing_along V pairs found : NoDup (map fst found) ->
  pairing V (along pairs) found = Rsum (fun p => inner (value_of V (lookup (fst p) found)) (snd p)) pairs.
Proof.
  intros N. induction pairs as [|[x d] pairs IH].
  - unfold pairing. rewrite (Rsum_ext _ (fun _ => 0%R)); [apply Rsum_zero|]. intros p _. apply inner_0_r.
  - rewrite Rsum_cons, <- IH. unfold pairing. rewrite (Rsum_ext _ (fun p => inner (V (snd p)) (if (x =? fst p)%nat then d else C0) + inner (V (snd p)) (along pairs (fst p)))%R)
      by (intros p _; now rewrite along_cons, inner_plus_r).
    rewrite Rsum_plus. f_equal. cbn [fst snd]. clear IH. induction found as [|[i g] found IH]; [cbn; now rewrite inner_0_l|].
    rewrite Rsum_cons. cbn [fst snd lookup map] in *. inversion N as [|? ? N1 N2]; subst. rewrite (IH N2). rewrite (Nat.eqb_sym x i). destruct (Nat.eqb_spec i x) as [->|NE].
    + cbn [value_of]. replace (lookup x found) with (@None nat); [cbn [value_of]; rewrite inner_0_l; ring|].
      clear - N1. induction found as [|[j g] found IH]; [reflexivity|]. cbn in *. destruct (Nat.eqb_spec j x); [subst; tauto|]. apply IH. tauto.
    + rewrite inner_0_r. ring.
Qed.

(** Reverse mode against forward mode, for any values of the nodes of the given graph. *)
Lemma gradients_adjoint env e h ys xs gys h' grads k ds : well_formed (h' ++ k) -> well_formed h -> in_graph h ys -> in_graph h gys ->
  gradients h ys xs gys = (h', grads) -> (forall i, length h <= i -> e i = C0) -> length ds = length xs ->
  let V i := nth i (perturbed H F env e (h' ++ k)) C0 in
  let T i := nth i (tangents V (along (combine xs ds)) h) C0 in
  Rsum (fun p => inner (V (snd p)) (T (fst p))) (combine ys gys) = Rsum (fun p => inner (value_of V (fst p)) (snd p)) (combine grads ds).
Proof.
  intros Wf W Y G E E0 L V T. unfold gradients in E. destruct (backward (length h) (combine ys gys) [] h) as [hb found] eqn:EB. injection E as <- <-.
  destruct (backward_ok _ _ _ _ _ _ (le_n _) W ltac:(apply Forall_forall; intros p Hp; unfold in_graph in G; rewrite Forall_forall in G; apply G; eapply in_combine_snd; eauto) (Forall_nil _) (NoDup_nil _) EB)
    as [W' [Fd N]].
  pose proof (backward_adjoint env V T (along (combine xs ds)) (hb ++ k) h) as A.
  specialize (A ltac:(intros j J1 J2; unfold V; rewrite perturbed_equation by assumption; rewrite E0 by exact J1; ring) W (fun i Hi => tangents_equation V _ h i W Hi)
    (length h) (combine ys gys) [] h hb found (le_n _) ltac:(exists []; now rewrite app_nil_r) ltac:(now exists k) EB).
  rewrite filter_all in A.
  2: { apply Forall_forall. intros [y g] Hp. apply Nat.ltb_lt. cbn. apply in_combine_l in Hp. unfold in_graph in Y. rewrite Forall_forall in Y. now apply Y. }
  rewrite (pairing_along V _ found N) in A. unfold pairing in A. cbn [Rsum fold_right] in A. rewrite Rplus_0_r in A. rewrite A.
  clear - L. revert ds L. induction xs as [|x xs IH]; intros [|d ds] L; cbn in L; try discriminate; [reflexivity|]. cbn [combine map]. rewrite !Rsum_cons. cbn [fst snd]. f_equal. apply IH. lia.
Qed.

Lemma extends_refl h : extends h h.
Proof. exists []. now rewrite app_nil_r. Qed.
Lemma extends_app h k : extends h (h ++ k).
Proof. now exists k. Qed.
Lemma extends_trans h1 h2 h3 : extends h1 h2 -> extends h2 h3 -> extends h1 h3.
Proof. intros [k ->] [k' ->]. exists (k ++ k'). now rewrite app_assoc. Qed.
Lemma extends_length h h' : extends h h' -> length h <= length h'.
Proof. intros [k ->]. rewrite app_length. lia. Qed.
Lemma extends_nth h h' i : extends h h' -> i < length h -> nth i h' (Const C0) = nth i h (Const C0).
Proof. intros [k ->] L. now apply app_nth1. Qed.
Lemma extends_well_formed h h' : extends h h' -> well_formed h' -> well_formed h.
Proof. intros X W i Hi. rewrite <- (extends_nth h h' i X Hi). apply W. apply extends_length in X. lia. Qed.
Lemma extends_perturbed env e h h' i : extends h h' -> i < length h -> nth i (perturbed H F env e h') C0 = nth i (perturbed H F env e h) C0.
Proof. intros [k ->] L. now apply perturbed_prefix. Qed.
Lemma extends_tangents V delta h h' i : extends h h' -> i < length h -> nth i (tangents V delta h') C0 = nth i (tangents V delta h) C0.
Proof. intros [k ->] L. now apply tangents_prefix. Qed.
Lemma extends_in h h' l : extends h h' -> in_graph h l -> in_graph h' l.
Proof. intros X. apply extends_length in X. apply Forall_impl. intros; lia. Qed.

Lemma tangents_ext V W delta h : well_formed h -> (forall i, i < length h -> V i = W i) -> tangents V delta h = tangents W delta h.
Proof.
  intros Wf E. apply nth_ext with C0 C0; [now rewrite !tangents_length|]. rewrite tangents_length. intros i. induction i as [i IH] using lt_wf_ind. intros Hi.
  rewrite !tangents_equation by assumption. f_equal. pose proof (Wf i Hi) as Wi. rewrite Forall_forall in Wi.
  apply op_tangent_ext; intros a Ha; specialize (Wi a Ha); [apply E|apply IH]; lia.
Qed.

Lemma adjoint_values env e h ys xs gys h' grads hf ds : well_formed hf -> extends h' hf -> well_formed h -> in_graph h ys -> in_graph h gys ->
  gradients h ys xs gys = (h', grads) -> (forall i, length h <= i -> e i = C0) -> length ds = length xs ->
  let V i := nth i (perturbed H F env e hf) C0 in
  let T i := nth i (tangents V (along (combine xs ds)) h) C0 in
  Rsum (fun p => inner (V (snd p)) (T (fst p))) (combine ys gys) = Rsum (fun p => inner (value_of V (fst p)) (snd p)) (combine grads ds).
Proof. intros Wf [k ->]. intros. eapply gradients_adjoint; eauto. Qed.

Lemma squares_zero {A} (f : A -> C) l : Rsum (fun a => inner (f a) (f a)) l = 0%R -> forall a, In a l -> f a = C0.
Proof.
  intros E a Ha. assert (P : forall b, In b l -> (0 <= inner (f b) (f b))%R).
  { intros b _. unfold inner. pose proof (Rle_0_sqr (Re (f b))). pose proof (Rle_0_sqr (Im (f b))). unfold Rsqr in *. lra. }
  pose proof (Rsum_in_le (fun b => inner (f b) (f b)) l a P Ha) as L. rewrite E in L. unfold inner in L.
  pose proof (Rle_0_sqr (Re (f a))) as A1. pose proof (Rle_0_sqr (Im (f a))) as A2. unfold Rsqr in *.
  apply C_eq; [change (Re C0) with 0%R|change (Im C0) with 0%R]; apply Rsqr_0_uniq; unfold Rsqr; lra.
Qed.

Lemma repeat_reads n c k : reads_below n (repeat (Const c) k).
Proof. revert n. induction k as [|k IH]; intros n; cbn [repeat]; [apply reads_below_nil|]. apply reads_below_cons; [apply Forall_nil|apply IH]. Qed.

Lemma fill_zeros_ok grads : forall h h' ids, well_formed h -> none_or_in h grads -> fill_zeros h grads = (h', ids) ->
  well_formed h' /\ extends h h' /\ in_graph h' ids /\ length ids = length grads /\
  (forall j, length h <= j < length h' -> nth j h' (Const C0) = Const C0) /\
  forall env e hf, well_formed hf -> extends h' hf -> (forall i, length h <= i -> e i = C0) ->
    let V i := nth i (perturbed H F env e hf) C0 in map V ids = map (value_of V) grads.
Proof.
  induction grads as [|[g|] t IH]; intros h h' ids W N E; cbn [fill_zeros] in E.
  - injection E as <- <-. repeat apply conj; auto; [apply extends_refl|constructor|intros; lia].
  - destruct (fill_zeros h t) as [h1 l] eqn:E1. injection E as <- <-. inversion N as [|? ? N1 N2]; subst.
    destruct (IH h h1 l W N2 E1) as [W1 [X [I1 [L [Z Q]]]]]. split; [exact W1|]. split; [exact X|].
    split; [constructor; [apply extends_length in X; lia|exact I1]|]. split; [cbn; lia|]. split; [exact Z|].
    intros env e hf Wf Xf E0. cbn [map value_of]. f_equal. now apply Q.
  - destruct (fill_zeros (h ++ [Const C0]) t) as [h1 l] eqn:E1. injection E as <- <-. inversion N as [|? ? N1 N2]; subst.
    assert (W0 : well_formed (h ++ [Const C0])) by (apply well_formed_app; [exact W|apply (repeat_reads _ C0 1)]).
    destruct (IH _ h1 l W0 ltac:(eapply Forall_impl; [|exact N2]; intros [g|]; [rewrite app_length; cbn; lia|auto]) E1) as [W1 [X [I1 [L [Z Q]]]]].
    assert (Hn : length h < length h1) by (apply extends_length in X; rewrite app_length in X; cbn in X; lia).
    assert (Hc : nth (length h) h1 (Const C0) = Const C0) by (rewrite (extends_nth _ _ _ X) by (rewrite app_length; cbn; lia); rewrite app_nth2, Nat.sub_diag by lia; reflexivity).
    split; [exact W1|]. split; [eapply extends_trans; [apply extends_app|exact X]|].
    split; [constructor; [exact Hn|exact I1]|]. split; [cbn; lia|]. split.
    + intros j Hj. destruct (Nat.eq_dec j (length h)) as [->|]; [exact Hc|]. apply Z. rewrite app_length. cbn. lia.
    + intros env e hf Wf Xf E0. cbn [map value_of]. f_equal; [|apply Q; auto; rewrite app_length; cbn; intros; apply E0; lia].
      rewrite perturbed_equation; [|exact Wf|apply extends_length in Xf; lia]. rewrite (extends_nth _ _ _ Xf) by exact Hn. rewrite Hc, E0 by lia. cbn. ring.
Qed.

Lemma Rsum_combine_map {A B} (g : A -> B) (l : list A) (q : A -> B -> R) : Rsum (fun p => q (fst p) (snd p)) (combine l (map g l)) = Rsum (fun a => q a (g a)) l.
Proof. induction l as [|a l IH]; [reflexivity|]. cbn [map combine]. rewrite !Rsum_cons, IH. reflexivity. Qed.

Lemma combine_of_map {A A' B} (f : A -> A') (l : list A) (l' : list B) : combine (map f l) l' = map (fun p => (f (fst p), snd p)) (combine l l').
Proof. revert l'. induction l as [|a l IH]; intros [|b l']; cbn; auto. now rewrite IH. Qed.
Lemma combine_of_map_r {A B B'} (f : B -> B') (l : list A) (l' : list B) : combine l (map f l') = map (fun p => (fst p, f (snd p))) (combine l l').
Proof. revert l'. induction l as [|a l IH]; intros [|b l']; cbn; auto. now rewrite IH. Qed.

(** Nodes that do not depend on what is moved do not move. *)
Lemma perturbed_below env e e' h i : well_formed h -> (forall j, j <= i -> e j = e' j) -> i < length h -> nth i (perturbed H F env e h) C0 = nth i (perturbed H F env e' h) C0.
Proof.
  intros W. induction i as [i IH] using lt_wf_ind. intros E Hi. rewrite !perturbed_equation by assumption. rewrite (E i) by lia. f_equal.
  pose proof (W i Hi) as Wi. rewrite Forall_forall in Wi. apply op_value_ext. intros a Ha. specialize (Wi a Ha). apply IH; [lia| |lia]. intros; apply E; lia.
Qed.

(** * Forward mode from two backward passes *)
Definition reads_function (P : nat -> Prop) (o : op) : Prop := match o with Holomorphic _ _ a | RealFunction _ _ a => P a | _ => True end.

Lemma add_n_functions P rest : forall n first ops total, add_n n first rest = (ops, total) -> Forall (reads_function P) ops.
Proof.
  induction rest as [|r t IH]; intros n first ops total E; cbn [add_n] in E.
  - injection E as <- <-. constructor.
  - destruct (add_n (S n) n t) as [ops' total'] eqn:E'. injection E as <- <-. constructor; [exact Logic.I|]. eapply IH; eauto.
Qed.
Lemma op_gradient_functions P o g n ops c : reads_function P o -> op_gradient o g n = (ops, c) -> Forall (reads_function P) ops.
Proof. intros R E. destruct o; cbn in *; injection E as <- <-; repeat (apply Forall_cons; [cbn; auto|]); apply Forall_nil. Qed.
Lemma backward_functions P m : forall pending found h h' found', Forall (reads_function P) h -> backward m pending found h = (h', found') -> Forall (reads_function P) h'.
Proof.
  induction m as [|i IH]; intros pending found h h' found' A E; cbn [backward] in E.
  - now injection E as <- <-.
  - destruct (map snd (filter _ pending)) as [|g more]; [eapply IH; eauto|].
    destruct (add_n (length h) g more) as [sums total] eqn:EA. destruct (op_gradient _ total _) as [ops contributions] eqn:EO.
    eapply IH; [|exact E]. apply Forall_app. split; [exact A|]. apply Forall_app. split; [eapply add_n_functions; eauto|].
    eapply op_gradient_functions; [|exact EO]. destruct (nth_in_or_default i h (Const C0)) as [In1| ->]; [rewrite Forall_forall in A; now apply A|exact Logic.I].
Qed.
Lemma gradients_functions P h ys xs gys h' grads : Forall (reads_function P) h -> gradients h ys xs gys = (h', grads) -> Forall (reads_function P) h'.
Proof. unfold gradients. destruct (backward _ _ _ _) as [hb found] eqn:EB. intros A E. injection E as <- <-. eapply backward_functions; eauto. Qed.

Lemma along_seq (du : nat -> C) n k i : along (combine (seq n k) (map du (seq n k))) i = if (n <=? i)%nat && (i <? n + k)%nat then du i else C0.
Proof.
  revert n. induction k as [|k IH]; intros n; cbn [seq map combine].
  - destruct (Nat.leb_spec n i), (Nat.ltb_spec i (n + 0)); try lia; reflexivity.
  - rewrite along_cons, IH. cbn [fst snd]. destruct (Nat.eqb_spec n i) as [->|].
    + destruct (Nat.leb_spec (S i) i); [lia|]. destruct (Nat.leb_spec i i); [|lia]. destruct (Nat.ltb_spec i (i + S k)); [|lia]. cbn. ring.
    + destruct (Nat.leb_spec (S n) i), (Nat.leb_spec n i), (Nat.ltb_spec i (S n + k)), (Nat.ltb_spec i (n + S k)); try lia; cbn; ring.
Qed.

Lemma Forall_nth_graph P (h : graph) i : Forall P h -> P (Const C0) -> P (nth i h (Const C0)).
Proof. intros A Z. destruct (nth_in_or_default i h (Const C0)) as [In1| ->]; [rewrite Forall_forall in A; now apply A|exact Z]. Qed.

Lemma well_formed_functions h : well_formed h -> Forall (reads_function (fun a => a < length h)) h.
Proof.
  intros W. apply Forall_forall. intros o Ho. destruct (In_nth _ _ (Const C0) Ho) as [i [Hi <-]]. pose proof (W i Hi) as Wi.
  destruct (nth i h (Const C0)); cbn in *; auto; inversion Wi; subst; lia.
Qed.

Lemma forward_mode_jvp env nan h ys xs gxs h' results hf : well_formed hf -> extends h' hf -> well_formed h -> in_graph h ys -> in_graph h xs -> in_graph h gxs ->
  length gxs = length xs ->
  forward_mode_gradients nan h ys xs gxs = (h', results) ->
  let V i := nth i (perturbed H F env (fun _ => C0) hf) C0 in
  map (value_of V) results = map (fun y => nth y (tangents V (along (combine xs (map V gxs))) h) C0) ys.
Proof.
  intros Wf Xf W Y X G L E V. unfold forward_mode_gradients in E.
  set (n0 := length h) in *. set (k := length ys) in *. set (us := seq n0 k) in *. set (h1 := h ++ repeat (Const nan) k) in *.
  destruct (gradients h1 ys xs us) as [h2 dydxs] eqn:E1. destruct (fill_zeros h2 dydxs) as [h3 ids] eqn:E2.
  assert (W1 : well_formed h1) by (apply well_formed_app; [exact W|apply repeat_reads]).
  assert (L1 : length h1 = n0 + k) by (unfold h1; rewrite app_length, repeat_length; reflexivity).
  assert (U1 : in_graph h1 us) by (apply Forall_forall; intros u Hu; apply in_seq in Hu; lia).
  destruct (gradients_ok _ _ _ _ _ _ W1 U1 E1) as [W2 [N2 [X2 Ld]]]. change (extends h1 h2) in X2.
  destruct (fill_zeros_ok _ _ _ _ W2 N2 E2) as [W3 [X3 [I3 [L3 [Z3 Q3]]]]].
  assert (X03 : extends h h3) by (eapply extends_trans; [apply extends_app|]; eapply extends_trans; [exact X2|exact X3]).
  destruct (gradients_ok _ _ _ _ _ _ W3 (extends_in _ _ _ X03 G) E) as [W4 [N4 [X4 L4]]]. change (extends h3 h') in X4.
  assert (X3f : extends h3 hf) by (eapply extends_trans; eauto).
  assert (X2f : extends h2 hf) by (eapply extends_trans; eauto).
  assert (X1f : extends h1 hf) by (eapply extends_trans; eauto).
  assert (X0f : extends h hf) by (eapply extends_trans; [apply extends_app|exact X1f]).
  pose proof (extends_length _ _ X0f) as Lf0. pose proof (extends_length _ _ X1f) as Lf1. pose proof (extends_length _ _ X2) as Lf2. pose proof (extends_length _ _ X3f) as Lf3.
  (* The derivatives of the first pass, for any values of the placeholders. *)
  assert (A : forall e ds, (forall i, i < n0 \/ n0 + k <= i -> e i = C0) -> length ds = length xs ->
    Rsum (fun p => inner (nan + e (snd p))%C (nth (fst p) (tangents V (along (combine xs ds)) h) C0)) (combine ys us) =
    Rsum (fun p => inner (nth (fst p) (perturbed H F env e hf) C0) (snd p)) (combine ids ds)).
  { intros e ds E0 Lds.
    pose proof (adjoint_values env e h1 ys xs us h2 dydxs hf ds Wf X2f W1 (extends_in _ _ _ (extends_app _ _) Y) U1 E1 ltac:(intros; apply E0; lia) Lds) as A.
    cbn zeta in A. pose proof (Q3 env e hf Wf X3f ltac:(intros; apply E0; lia)) as Q. cbn zeta in Q.
    rewrite <- (Rsum_map (fun p => (value_of (fun i => nth i (perturbed H F env e hf) C0) (fst p), snd p)) (fun p => inner (fst p) (snd p))) in A.
    rewrite <- combine_of_map, <- Q, combine_of_map, Rsum_map in A. cbn [fst snd] in A. rewrite <- A. apply Rsum_ext. intros [y u] Hp.
    pose proof (in_combine_l _ _ _ _ Hp) as Hy. pose proof (in_combine_r _ _ _ _ Hp) as Hu. apply in_seq in Hu. cbn [fst snd]. unfold in_graph in Y. rewrite Forall_forall in Y. specialize (Y y Hy).
    f_equal.
    - rewrite perturbed_equation; [|exact Wf|lia]. rewrite (extends_nth _ _ _ X1f) by lia. unfold h1. rewrite app_nth2 by (fold n0; lia).
      replace (nth _ (repeat _ _) _) with (Const nan); [reflexivity|]. symmetry. assert (Hr : u - length h < k) by (fold n0; lia). clear - Hr. revert Hr. generalize (u - length h). induction k as [|m IH]; intros [|j] Hr; cbn; try lia; auto. apply IH. lia.
    - unfold h1. rewrite tangents_prefix by exact Y. f_equal. apply tangents_ext; [exact W|]. intros i Hi. apply perturbed_below; [exact Wf| |lia]. intros j Hj. symmetry. apply E0. fold n0 in Hi. lia. }
  set (J := fun y => nth y (tangents V (along (combine xs (map V gxs))) h) C0).
  (* The second pass. *)
  assert (B : forall du, Rsum (fun p => inner (value_of V (fst p)) (snd p)) (combine results (map du us)) = Rsum (fun p => inner (J (fst p)) (du (snd p))) (combine ys us)).
  { intros du.
    set (e := fun (t : R) i => if (n0 <=? i)%nat && (i <? n0 + k)%nat then (RtoC t * du i)%C else C0).
    assert (Ee : forall t i, i < n0 \/ n0 + k <= i -> e t i = C0).
    { intros t i Hi. unfold e. destruct (Nat.leb_spec n0 i), (Nat.ltb_spec i (n0 + k)); try lia; reflexivity. }
    set (Vt := fun t i => nth i (perturbed H F env (e t) hf) C0).
    assert (EV : forall i, Vt 0%R i = V i).
    { intros i. unfold Vt, V. f_equal. apply perturbed_ext. intros j. unfold e. destruct (_ && _); [|reflexivity]. change (RtoC 0) with C0. ring. }
    assert (Eu : forall t u, In u us -> e t u = (RtoC t * du u)%C).
    { intros t u Hu. apply in_seq in Hu. unfold e. destruct (Nat.leb_spec n0 u), (Nat.ltb_spec u (n0 + k)); try lia; reflexivity. }
    assert (A' : forall t ds, length ds = length xs ->
      Rsum (fun p => inner (Vt t (fst p) - V (fst p))%C (snd p)) (combine ids ds) =
      (t * Rsum (fun p => inner (du (snd p)) (nth (fst p) (tangents V (along (combine xs ds)) h) C0)) (combine ys us))%R).
    { intros t ds Lds. rewrite (Rsum_ext _ (fun p => inner (Vt t (fst p)) (snd p) - inner (Vt 0%R (fst p)) (snd p))%R)
        by (intros p _; rewrite EV; unfold inner, Re, Im, Cminus, Cplus, Copp; cbn; ring).
      rewrite Rsum_minus. unfold Vt. rewrite <- (A (e t) ds (Ee t) Lds), <- (A (e 0%R) ds (Ee 0%R) Lds), <- Rsum_minus, <- Rsum_scal. apply Rsum_ext. intros [y u] Hp. cbn [fst snd].
      rewrite !(Eu _ u) by (eapply in_combine_r; eauto). unfold inner, Re, Im, Cplus, Cmult, RtoC. cbn. ring. }
    (* what the derivatives are is a linear function of the placeholders *)
    assert (LIN : forall t id, In id ids -> Vt t id = (V id + RtoC t * (Vt 1%R id - V id))%C).
    { intros t id Hid.
      pose proof (squares_zero (fun i => (Vt t i - V i) - RtoC t * (Vt 1%R i - V i))%C ids) as Q.
      set (q := fun i => ((Vt t i - V i) - RtoC t * (Vt 1%R i - V i))%C) in *.
      assert (Lq : length (map q ids) = length xs) by (rewrite map_length; lia).
      assert (S0 : Rsum (fun a => inner (q a) (q a)) ids = 0%R).
      { pose proof (A' t (map q ids) Lq) as A1. pose proof (A' 1%R (map q ids) Lq) as A2. rewrite Rmult_1_l in A2. rewrite <- A2 in A1.
        rewrite (Rsum_combine_map q ids (fun a b => inner (Vt t a - V a)%C b)), (Rsum_combine_map q ids (fun a b => inner (Vt 1%R a - V a)%C b)) in A1.
        rewrite (Rsum_ext _ (fun a => inner (Vt t a - V a)%C (q a) - t * inner (Vt 1%R a - V a)%C (q a))%R).
        - rewrite Rsum_minus, Rsum_scal, A1. ring.
        - intros a _. unfold q at 1. unfold inner, Re, Im, Cminus, Cplus, Copp, Cmult, RtoC. cbn. ring. }
      specialize (Q S0 id Hid). unfold q in Q. replace (Vt t id) with (((Vt t id - V id) - RtoC t * (Vt 1%R id - V id)) + (V id + RtoC t * (Vt 1%R id - V id)))%C by ring. rewrite Q. ring. }
    pose proof (adjoint_values env (fun _ => C0) h3 ids us gxs h' results hf (map du us) Wf Xf W3 I3 (extends_in _ _ _ X03 G) E ltac:(reflexivity) ltac:(apply map_length)) as R2.
    cbn zeta in R2. fold V in R2. change (fun i => nth i (perturbed H F env (fun _ => C0) hf) C0) with V in R2. rewrite <- R2.
    assert (TL : forall id, In id ids -> nth id (tangents V (along (combine us (map du us))) h3) C0 = (Vt 1%R id - V id)%C).
    { intros id Hid. unfold in_graph in I3. rewrite Forall_forall in I3. pose proof (I3 id Hid) as Lid.
      apply (velocity_unique (fun t => Vt t id)).
      - assert (SS : smooth_or_still h3 (fun t => perturbed H F env (fun j => (C0 + RtoC t * along (combine us (map du us)) j)%C) h3)).
        { intros i Hi. pose proof (well_formed_functions h W) as FH.
          assert (FH1 : Forall (reads_function (fun a => a < n0)) h1) by (apply Forall_app; split; [exact FH|]; clear; induction k; cbn; constructor; cbn; auto).
          pose proof (gradients_functions _ _ _ _ _ _ _ FH1 E1) as FH2.
          assert (FH3 : reads_function (fun a => a < n0) (nth i h3 (Const C0))).
          { destruct (Nat.lt_ge_cases i (length h2)); [rewrite (extends_nth _ _ _ X3) by assumption; apply Forall_nth_graph; [exact FH2|exact Logic.I]|].
            rewrite Z3 by lia. exact Logic.I. }
          assert (ST : forall a, a < n0 -> forall t, nth a (perturbed H F env (fun j => (C0 + RtoC t * along (combine us (map du us)) j)%C) h3) C0 = nth a (perturbed H F env (fun j => (C0 + RtoC 0 * along (combine us (map du us)) j)%C) h3) C0).
          { intros a Ha t. apply perturbed_below; [exact W3| |apply extends_length in X03; fold n0 in X03; lia]. intros j Hj. unfold us. rewrite along_seq.
            destruct (Nat.leb_spec n0 j); [lia|]. cbn. ring. }
          destruct (nth i h3 (Const C0)); cbn in FH3; auto. }
        pose proof (forward_derivative env (fun _ => C0) (along (combine us (map du us))) h3 W3 SS id Lid) as FD. cbn zeta in FD.
        rewrite (tangents_ext _ V) in FD.
        + eapply velocity_ext; [|exact FD]. intros t. cbn. unfold Vt. rewrite (extends_perturbed _ _ _ _ _ X3f) by exact Lid. f_equal. apply perturbed_ext. intros j. unfold us. rewrite along_seq.
          unfold e. destruct (_ && _); ring.
        + exact W3.
        + intros i Hi. unfold V. rewrite (extends_perturbed _ _ _ _ _ X3f) by exact Hi. f_equal. apply perturbed_ext. intros j. change (RtoC 0) with C0. ring.
      - eapply velocity_ext; [|apply (velocity_line (V id) (Vt 1%R id - V id)%C)]. intros t. cbn. now rewrite (LIN t id Hid). }
    rewrite (Rsum_ext _ (fun p => inner (Vt 1%R (fst p) - V (fst p))%C (V (snd p)))).
    2: { intros [id g] Hp. cbn [fst snd]. rewrite (TL id) by (eapply in_combine_l; eauto). apply inner_comm. }
    pose proof (A' 1%R (map V gxs) ltac:(rewrite map_length; exact L)) as A1. rewrite combine_of_map_r, Rsum_map in A1. cbn [fst snd] in A1. rewrite A1, Rmult_1_l. apply Rsum_ext. intros [y u] _.
    cbn [fst snd]. unfold J. apply inner_comm. }
  assert (Lr : length results = k) by (rewrite L4; unfold us; apply seq_length).
  (* Choosing the directions *)
  set (q := fun j => (value_of V (nth j results None) - J (nth j ys 0%nat))%C).
  assert (Q : Rsum (fun j => inner (q j) (q j)) (seq 0 k) = 0%R).
  { specialize (B (fun u => q (u - n0))).
    assert (R1 : forall (l : list (option nat)) s, Rsum (fun p => inner (value_of V (fst p)) (snd p)) (combine l (map (fun u => q (u - n0)) (seq (n0 + s) (length l)))) = Rsum (fun j => inner (value_of V (nth (j - s) l None)) (q j)) (seq s (length l))).
    { induction l as [|a l IH]; intros s; [reflexivity|]. cbn [length seq map combine]. rewrite !Rsum_cons. cbn [fst snd]. rewrite Nat.sub_diag. cbn [nth]. replace (n0 + s - n0) with s by lia. f_equal.
      rewrite <- Nat.add_succ_r, IH. apply Rsum_ext. intros j Hj. apply in_seq in Hj. replace (j - s) with (S (j - S s)) by lia. reflexivity. }
    assert (R2 : forall (l : list nat) s, Rsum (fun p => inner (J (fst p)) (q (snd p - n0))) (combine l (seq (n0 + s) (length l))) = Rsum (fun j => inner (J (nth (j - s) l 0%nat)) (q j)) (seq s (length l))).
    { induction l as [|a l IH]; intros s; [reflexivity|]. cbn [length seq map combine]. rewrite !Rsum_cons. cbn [fst snd]. rewrite Nat.sub_diag. cbn [nth]. replace (n0 + s - n0) with s by lia. f_equal.
      rewrite <- Nat.add_succ_r, IH. apply Rsum_ext. intros j Hj. apply in_seq in Hj. replace (j - s) with (S (j - S s)) by lia. reflexivity. }
    specialize (R1 results 0). specialize (R2 ys 0). rewrite Lr, Nat.add_0_r in R1. rewrite Nat.add_0_r in R2. fold k in R2. fold us in R1, R2. rewrite R1, R2 in B.
    rewrite (Rsum_ext _ (fun j => inner (value_of V (nth (j - 0) results None)) (q j) - inner (J (nth (j - 0) ys 0%nat)) (q j))%R); [rewrite Rsum_minus, B; ring|].
    intros j _. rewrite Nat.sub_0_r. unfold q at 1. unfold inner, Re, Im, Cminus, Cplus, Copp. cbn. ring. }
  apply nth_ext with C0 C0; [rewrite !map_length; exact Lr|]. rewrite map_length, Lr. intros j Hj.
  rewrite (nth_indep _ C0 (value_of V None)), map_nth by (rewrite map_length; lia).
  rewrite (nth_indep (map _ ys) C0 (J 0%nat)), (map_nth J) by (rewrite map_length; exact Hj).
  pose proof (squares_zero q (seq 0 k) Q j ltac:(apply in_seq; lia)) as Qj. unfold q in Qj.
  replace (value_of V (nth j results None)) with ((value_of V (nth j results None) - J (nth j ys 0%nat)) + J (nth j ys 0%nat))%C by ring. rewrite Qj. ring.
Qed.

(** * The derivative itself *)
Lemma smooth_moves env h delta i : well_formed h -> smooth H F h (evaluate H F env h) -> i < length h ->
  moves H F env h delta i (nth i (tangents (fun j => nth j (evaluate H F env h) C0) delta h) C0).
Proof.
  intros W Sm Hi. unfold moves.
  assert (Ev : perturbed H F env (fun j => (C0 + RtoC 0 * delta j)%C) h = evaluate H F env h).
  { rewrite evaluate_perturbed. apply perturbed_ext. intros j. change (RtoC 0) with C0. ring. }
  pose proof (forward_derivative env (fun _ => C0) delta h W) as FD. cbn zeta beta in FD. rewrite Ev in FD.
  eapply velocity_ext; [|apply FD; [|exact Hi]].
  - intros t. cbn. f_equal. apply perturbed_ext. intros j. ring.
  - intros j Hj. specialize (Sm j Hj). rewrite Ev. destruct (nth j h (Const C0)); auto.
Qed.
Lemma moves_unique env h delta y w w' : moves H F env h delta y w -> moves H F env h delta y w' -> w = w'.
Proof. apply velocity_unique. Qed.
Lemma moves_extends env h h' delta y w : extends h h' -> y < length h -> moves H F env h delta y w -> moves H F env h' delta y w.
Proof. intros X L M. eapply velocity_ext; [|exact M]. intros t. cbn. symmetry. now apply extends_perturbed. Qed.
Lemma smooth_extends env h h' : well_formed h' -> extends h h' -> smooth H F h' (evaluate H F env h') -> smooth H F h (evaluate H F env h).
Proof.
  intros W X Sm i Hi. pose proof (extends_length _ _ X) as L. specialize (Sm i ltac:(lia)). rewrite (extends_nth _ _ _ X Hi) in Sm.
  pose proof (extends_well_formed _ _ X W i Hi) as Wi. rewrite !evaluate_perturbed in *.
  destruct (nth i h (Const C0)); auto; cbn [arguments] in Wi; inversion Wi; subst; rewrite (extends_perturbed _ _ _ _ _ X) in Sm by lia; exact Sm.
Qed.

End Functions.

(** * What depends on what *)
Lemma depends_inv h x y : depends h x y -> y = x \/ (y < length h /\ exists a, In a (arguments (nth y h (Const C0))) /\ depends h x a).
Proof. intros D. inversion D; subst; [now left|]. right. eauto. Qed.
Lemma depends_le h x y : well_formed h -> depends h x y -> x <= y.
Proof. intros W. induction 1 as [|y a L A D IH]; [lia|]. pose proof (W y L) as Wy. rewrite Forall_forall in Wy. specialize (Wy a A). lia. Qed.
Lemma depends_extends h h' x y : well_formed h' -> extends h h' -> y < length h -> depends h x y <-> depends h' x y.
Proof.
  intros W X. pose proof (extends_length _ _ X) as L. revert y. induction y as [y IH] using lt_wf_ind. intros Hy. pose proof (W y ltac:(lia)) as Wy. rewrite Forall_forall in Wy.
  split; intros D; apply depends_inv in D; destruct D as [->|[_ [a [Ha D]]]]; try apply depends_self.
  - rewrite <- (extends_nth _ _ _ X Hy) in Ha. apply (depends_through h' x y a); [lia|exact Ha|]. apply IH; [auto|specialize (Wy a Ha); lia|exact D].
  - pose proof (Wy a Ha). apply (depends_through h x y a); [lia|now rewrite <- (extends_nth _ _ _ X Hy)|]. apply IH; [auto|lia|exact D].
Qed.

Lemma pending_at (pending : list (nat * nat)) i g : In g (map snd (filter (fun p => fst p =? i) pending)) <-> In (i, g) pending.
Proof.
  rewrite in_map_iff. split.
  - intros [[j k] [<- Hp]]. apply filter_In in Hp. destruct Hp as [Hp E]. cbn in *. apply Nat.eqb_eq in E. now subst.
  - intros Hp. exists (i, g). split; [reflexivity|]. apply filter_In. split; [exact Hp|]. cbn. apply Nat.eqb_refl.
Qed.

Lemma backward_found h0 : well_formed h0 -> forall m pending found h h' found', m <= length h0 -> extends h0 h -> backward m pending found h = (h', found') ->
  forall x, In x (map fst found') <-> In x (map fst found) \/ exists p, In p pending /\ fst p < m /\ depends h0 x (fst p).
Proof.
  intros W. induction m as [|i IH]; intros pending found h h' found' Hm X E x; cbn [backward] in E.
  - injection E as <- <-. split; [now left|]. intros [A|[p [_ [A _]]]]; [exact A|lia].
  - destruct (map snd (filter _ pending)) as [|g more] eqn:EM.
    + rewrite (IH pending found h h' found' ltac:(lia) X E x). split; (intros [A|[p [P1 [P2 P3]]]]; [now left|right; exists p; split; [exact P1|split; [|exact P3]]]); [lia|].
      destruct (Nat.eq_dec (fst p) i) as [Ei|]; [|lia]. exfalso. destruct p as [j g]. cbn in Ei. subst j. apply (pending_at pending i g) in P1. rewrite EM in P1. exact P1.
    + destruct (add_n (length h) g more) as [sums total] eqn:EA. destruct (op_gradient _ total _) as [ops contributions] eqn:EO.
      rewrite (extends_nth _ _ _ X) in EO by lia. pose proof (op_gradient_arguments _ _ _ _ _ EO) as AR.
      rewrite (IH (contributions ++ pending) ((i, total) :: found) (h ++ sums ++ ops) h' found' ltac:(lia) ltac:(eapply extends_trans; [exact X|apply extends_app]) E x).
      assert (PI : exists g', In (i, g') pending) by (exists g; apply pending_at; rewrite EM; now left).
      pose proof (W i ltac:(lia)) as Wi. rewrite Forall_forall in Wi. cbn [map fst]. split.
      * intros [[->|A]|[p [P1 [P2 P3]]]]; [right|now left|right].
        -- destruct PI as [g' PI]. exists (x, g'). repeat split; [exact PI|cbn; lia|apply depends_self].
        -- apply in_app_or in P1. destruct P1 as [P1|P1]; [|exists p; repeat split; auto; lia].
           destruct PI as [g' PI]. exists (i, g'). repeat split; [exact PI|cbn; lia|]. cbn. apply (depends_through h0 x i (fst p)); [lia| |exact P3]. rewrite <- AR. now apply in_map.
      * intros [A|[p [P1 [P2 P3]]]]; [left; now right|]. destruct (Nat.eq_dec (fst p) i) as [Ei|].
        -- rewrite Ei in P3. apply depends_inv in P3. destruct P3 as [->|[_ [a [Ha D]]]]; [left; now left|right].
           rewrite <- AR in Ha. apply in_map_iff in Ha. destruct Ha as [q [<- Hq]]. exists q. repeat split; [apply in_or_app; now left| |exact D]. apply Wi. rewrite <- AR. now apply in_map.
        -- right. exists p. repeat split; [apply in_or_app; now right|lia|exact P3].
Qed.

Lemma lookup_none x l : lookup x l = None <-> ~ In x (map fst l).
Proof.
  induction l as [|[i g] l IH]; cbn; [tauto|]. destruct (Nat.eqb_spec i x) as [->|N]; [split; [discriminate|tauto]|]. rewrite IH. tauto.
Qed.
Lemma lookup_in x l g : lookup x l = Some g -> In (x, g) l.
Proof. induction l as [|[i k] l IH]; cbn; [discriminate|]. destruct (Nat.eqb_spec i x) as [->|N]; [intros E; injection E as ->; now left|auto]. Qed.

Lemma gradients_none h ys xs gys h' grads : well_formed h -> in_graph h ys -> length gys = length ys -> gradients h ys xs gys = (h', grads) ->
  Forall2 (fun x g => g = None <-> forall y, In y ys -> ~ depends h x y) xs grads.
Proof.
  intros W Y L E. unfold gradients in E. destruct (backward _ _ _ _) as [hb found] eqn:EB. injection E as <- <-.
  pose proof (backward_found h W _ _ _ _ _ _ (le_n _) (extends_refl h) EB) as BF.
  induction xs as [|x xs IH]; cbn [map]; constructor; [|exact IH]. rewrite lookup_none, BF. cbn [map In]. split.
  - intros N y Hy D. apply N. right. destruct (In_nth _ _ 0%nat Hy) as [j [Hj <-]]. exists (nth j ys 0%nat, nth j gys 0%nat). unfold in_graph in Y. rewrite Forall_forall in Y. repeat split; [|cbn; apply Y, nth_In, Hj|exact D].
    rewrite <- combine_nth by (symmetry; exact L). apply nth_In. rewrite combine_length. lia.
  - intros N [[]|[p [P1 [_ P3]]]]. destruct p as [y g]. apply (N y); [eapply in_combine_l; eauto|exact P3].
Qed.

(** [D] is what depends on some nodes of [h0]. *)
Definition flows (D : nat -> Prop) (hf : graph) (n : nat) : Prop := forall j, n <= j -> j < length hf -> (D j <-> exists a, In a (arguments (nth j hf (Const C0))) /\ D a).

Lemma add_n_flows D hf n0 : flows D hf n0 -> forall rest n first ops total, n0 <= n -> add_n n first rest = (ops, total) -> holds hf n ops ->
  (D total <-> exists g, In g (first :: rest) /\ D g).
Proof.
  intros U. induction rest as [|r t IH]; intros n first ops total L E Hh; cbn [add_n] in E.
  - injection E as <- <-. cbn. split; [eauto|]. intros [g [[<-|[]] Dg]]. exact Dg.
  - destruct (add_n (S n) n t) as [ops' total'] eqn:E'. injection E as <- <-.
    destruct (Hh 0 ltac:(cbn; lia)) as [E0 L0]. rewrite Nat.add_0_r in *. cbn [nth] in E0.
    change (Add first r :: ops') with ([Add first r] ++ ops') in Hh. apply holds_app in Hh. destruct Hh as [_ Hh]. cbn [length] in Hh. rewrite Nat.add_1_r in Hh.
    rewrite (IH (S n) n ops' total' ltac:(lia) E' Hh). pose proof (U n ltac:(lia) L0) as Un. rewrite E0 in Un. cbn [arguments] in Un. cbn [In] in *. split.
    + intros [g [[<-|Hg] Dg]]; [|eauto 6]. apply Un in Dg. destruct Dg as [a [[<-|[<-|[]]] Da]]; eauto 6.
    + intros [g [[<-|[<-|Hg]] Dg]]; [exists n; split; [now left|apply Un; eauto]..|eauto 6].
Qed.

Lemma op_gradient_flows D hf n0 o g n ops contributions : flows D hf n0 -> n0 <= n -> op_gradient o g n = (ops, contributions) -> holds hf n ops ->
  (forall a, In a (arguments o) -> ~ D a) -> forall p, In p contributions -> (D (snd p) <-> D g).
Proof.
  intros U L E Hh N.
  assert (P : forall j, j < length ops -> D (n + j) <-> exists a, In a (arguments (nth j ops (Const C0))) /\ D a).
  { intros j Hj. destruct (Hh j Hj) as [Ej Lj]. rewrite <- Ej. apply U; lia. }
  destruct o; cbn [op_gradient] in E; injection E as <- <-;
    try (pose proof (P 0 ltac:(cbn; lia)) as Q0; cbn [nth arguments] in Q0; rewrite Nat.add_0_r in Q0);
    try (pose proof (P 1 ltac:(cbn; lia)) as Q1; cbn [nth arguments] in Q1);
    try (pose proof (P 2 ltac:(cbn; lia)) as Q2; cbn [nth arguments] in Q2);
    try (pose proof (P 3 ltac:(cbn; lia)) as Q3; cbn [nth arguments] in Q3); clear P; cbn [arguments In] in *; intros p Hp;
    repeat match goal with
    | X : _ \/ _ |- _ => destruct X as [X|X]
    | X : False |- _ => destruct X
    end; subst; cbn [snd]; try tauto;
    repeat match goal with
    | X : D ?m <-> (exists a, (?b = a \/ ?c = a \/ False) /\ D a) |- _ =>
        assert (D m <-> D b \/ D c) by (rewrite X; split; [intros [? [[<-|[<-|[]]] ?]]; auto|intros [?|?]; eauto]); clear X
    | X : D ?m <-> (exists a, (?b = a \/ False) /\ D a) |- _ =>
        assert (D m <-> D b) by (rewrite X; split; [intros [? [[<-|[]] ?]]; auto|eauto]); clear X
    | X : D ?m <-> (exists a, False /\ D a) |- _ =>
        assert (~ D m) by (rewrite X; intros [? [[] _]]); clear X
    end;
    repeat match goal with X : forall a, _ = a \/ _ -> ~ D a |- _ => pose proof (X _ (or_introl eq_refl)); try pose proof (X _ (or_intror (or_introl eq_refl))); clear X end; tauto.
Qed.

Definition tame (D : nat -> Prop) (o : op) : Prop :=
  match o with
  | Mul a b => ~ (D a /\ D b)
  | Holomorphic _ _ a | RealFunction _ _ a => ~ D a
  | _ => True
  end.

Ltac flow_cases D :=
  repeat match goal with
  | X : D ?m <-> (exists a, (?b = a \/ ?c = a \/ False) /\ D a) |- _ =>
      assert (D m <-> D b \/ D c) by (rewrite X; split; [intros [? [[<-|[<-|[]]] ?]]; auto|intros [?|?]; eauto]); clear X
  | X : D ?m <-> (exists a, (?b = a \/ False) /\ D a) |- _ =>
      assert (D m <-> D b) by (rewrite X; split; [intros [? [[<-|[]] ?]]; auto|eauto]); clear X
  | X : D ?m <-> (exists a, False /\ D a) |- _ =>
      assert (~ D m) by (rewrite X; intros [? [[] _]]); clear X
  end;
  repeat match goal with X : forall a, _ = a \/ _ -> _ |- _ => pose proof (X _ (or_introl eq_refl)); try pose proof (X _ (or_intror (or_introl eq_refl))); clear X end.

Lemma add_n_tame D rest : forall n first ops total, add_n n first rest = (ops, total) -> Forall (tame D) ops.
Proof.
  induction rest as [|r t IH]; intros n first ops total E; cbn [add_n] in E.
  - injection E as <- <-. constructor.
  - destruct (add_n (S n) n t) as [ops' total'] eqn:E'. injection E as <- <-. constructor; [exact Logic.I|]. eapply IH; eauto.
Qed.
Lemma op_gradient_tame D hf n0 o g n ops contributions : flows D hf n0 -> n0 <= n -> op_gradient o g n = (ops, contributions) -> holds hf n ops ->
  (forall a, In a (arguments o) -> ~ D a) -> Forall (tame D) ops.
Proof.
  intros U L E Hh N.
  assert (P : forall j, j < length ops -> D (n + j) <-> exists a, In a (arguments (nth j ops (Const C0))) /\ D a).
  { intros j Hj. destruct (Hh j Hj) as [Ej Lj]. rewrite <- Ej. apply U; lia. }
  destruct o; cbn [op_gradient] in E; injection E as <- <-;
    try (pose proof (P 0 ltac:(cbn; lia)) as Q0; cbn [nth arguments] in Q0; rewrite Nat.add_0_r in Q0);
    try (pose proof (P 1 ltac:(cbn; lia)) as Q1; cbn [nth arguments] in Q1);
    try (pose proof (P 2 ltac:(cbn; lia)) as Q2; cbn [nth arguments] in Q2);
    try (pose proof (P 3 ltac:(cbn; lia)) as Q3; cbn [nth arguments] in Q3); clear P; cbn [arguments In] in *; flow_cases D;
    repeat (apply Forall_cons; [cbn [tame]; tauto|]); apply Forall_nil.
Qed.
Lemma op_gradient_clean D hf n0 o g n ops contributions : flows D hf n0 -> n0 <= n -> op_gradient o g n = (ops, contributions) -> holds hf n ops ->
  tame D o -> ((exists a, In a (arguments o) /\ D a) -> ~ D g) -> forall p, In p contributions -> D (fst p) -> ~ D (snd p).
Proof.
  intros U L E Hh T N.
  assert (P : forall j, j < length ops -> D (n + j) <-> exists a, In a (arguments (nth j ops (Const C0))) /\ D a).
  { intros j Hj. destruct (Hh j Hj) as [Ej Lj]. rewrite <- Ej. apply U; lia. }
  assert (N' : forall a, In a (arguments o) -> D a -> ~ D g) by (intros a Ha Da; apply N; eauto). clear N.
  destruct o; cbn [op_gradient] in E; injection E as <- <-;
    try (pose proof (P 0 ltac:(cbn; lia)) as Q0; cbn [nth arguments] in Q0; rewrite Nat.add_0_r in Q0);
    try (pose proof (P 1 ltac:(cbn; lia)) as Q1; cbn [nth arguments] in Q1);
    try (pose proof (P 2 ltac:(cbn; lia)) as Q2; cbn [nth arguments] in Q2);
    try (pose proof (P 3 ltac:(cbn; lia)) as Q3; cbn [nth arguments] in Q3); clear P; cbn [arguments In tame] in *; flow_cases D; intros p Hp;
    repeat match goal with
    | X : _ \/ _ = p \/ _ |- _ => destruct X as [X|X]
    | X : _ = p \/ _ |- _ => destruct X as [X|X]
    | X : False |- _ => destruct X
    end; subst; cbn [fst snd]; tauto.
Qed.

Lemma new_nodes_hold hf h sums ops h' : extends (h ++ sums ++ ops) h' -> extends h' hf -> holds hf (length h) sums /\ holds hf (length h + length sums) ops.
Proof.
  intros X X'. pose proof (extends_trans _ _ _ X X') as [k ->]. apply holds_app. intros j Hj. split; [|rewrite !app_length in *; lia].
  rewrite <- app_assoc, app_nth2 by lia. replace (length h + j - length h) with j by lia. now apply app_nth1.
Qed.

Lemma backward_flows D hf h0 : well_formed h0 -> flows D hf (length h0) -> (forall i a, i < length h0 -> In a (arguments (nth i h0 (Const C0))) -> ~ D a) ->
  forall m pending found h h' found', m <= length h0 -> extends h0 h -> extends h' hf -> backward m pending found h = (h', found') ->
  (forall x g, In (x, g) found' -> In (x, g) found \/ (x < m /\ (D g <-> exists p, In p pending /\ fst p < m /\ D (snd p) /\ depends h0 x (fst p)))) /\
  ((forall j, length h0 <= j < length h -> tame D (nth j hf (Const C0))) -> forall j, length h0 <= j < length h' -> tame D (nth j hf (Const C0))).
Proof.
  intros W U N. induction m as [|i IH]; intros pending found h h' found' Hm X Xf E; cbn [backward] in E.
  - injection E as <- <-. split; auto.
  - destruct (map snd (filter _ pending)) as [|g more] eqn:EM.
    + destruct (IH pending found h h' found' ltac:(lia) X Xf E) as [A B]. split; [|exact B]. intros x g Hx. destruct (A x g Hx) as [|[Lx Q]]; [now left|right]. split; [lia|]. rewrite Q.
      split; intros [p [P1 [P2 P3]]]; exists p; (split; [exact P1|split; [|exact P3]]); [lia|].
      destruct (Nat.eq_dec (fst p) i) as [Ei|]; [|lia]. exfalso. destruct p as [j g']. cbn in Ei. subst j. apply (pending_at pending i g') in P1. rewrite EM in P1. exact P1.
    + destruct (add_n (length h) g more) as [sums total] eqn:EA. destruct (op_gradient _ total _) as [ops contributions] eqn:EO.
      rewrite (extends_nth _ _ _ X) in EO by lia. pose proof (op_gradient_arguments _ _ _ _ _ EO) as AR. pose proof (extends_length _ _ X) as L0.
      pose proof (backward_extends _ _ _ _ _ _ E) as Xb. destruct (new_nodes_hold hf h sums ops h' Xb Xf) as [Hs Ho].
      pose proof (add_n_flows D hf (length h0) U more (length h) g sums total ltac:(lia) EA Hs) as FA.
      pose proof (op_gradient_flows D hf (length h0) _ total (length h + length sums) ops contributions U ltac:(lia) EO Ho (fun a Ha => N i a ltac:(lia) Ha)) as FO.
      assert (FT : D total <-> exists g', In (i, g') pending /\ D g').
      { rewrite FA. rewrite <- EM. split; intros [g' [G1 G2]]; exists g'; (split; [|exact G2]); now apply pending_at. }
      destruct (IH (contributions ++ pending) ((i, total) :: found) (h ++ sums ++ ops) h' found' ltac:(lia) ltac:(eapply extends_trans; [exact X|apply extends_app]) Xf E) as [A B].
      pose proof (W i ltac:(lia)) as Wi. rewrite Forall_forall in Wi. split.
      * intros x g' Hx. destruct (A x g' Hx) as [[E1|H1]|[Lx Q]]; [|now left|].
        -- injection E1 as <- <-. right. split; [lia|]. rewrite FT. split.
           ++ intros [g' [G1 G2]]. exists (i, g'). repeat split; [exact G1|cbn; lia|exact G2|apply depends_self].
           ++ intros [[j g'] [P1 [P2 [P3 P4]]]]. cbn in *. pose proof (depends_le _ _ _ W P4). assert (j = i) by lia. subst. eauto.
        -- right. split; [lia|]. rewrite Q. split.
           ++ intros [p [P1 [P2 [P3 P4]]]]. apply in_app_or in P1. destruct P1 as [P1|P1]; [|exists p; repeat split; auto; lia].
              apply (FO p P1) in P3. apply FT in P3. destruct P3 as [g'' [G1 G2]]. exists (i, g''). repeat split; [exact G1|cbn; lia|exact G2|]. cbn.
              apply (depends_through h0 x i (fst p)); [lia| |exact P4]. rewrite <- AR. now apply in_map.
           ++ intros [p [P1 [P2 [P3 P4]]]]. destruct (Nat.eq_dec (fst p) i) as [Ei|].
              ** rewrite Ei in P4. apply depends_inv in P4. destruct P4 as [->|[_ [a [Ha Dp]]]]; [lia|].
                 rewrite <- AR in Ha. apply in_map_iff in Ha. destruct Ha as [q [<- Hq]]. exists q. split; [apply in_or_app; now left|]. split; [apply Wi; rewrite <- AR; now apply in_map|]. split; [|exact Dp].
                 apply (FO q Hq). apply FT. exists (snd p). split; [|exact P3]. rewrite <- Ei. now destruct p.
              ** exists p. repeat split; [apply in_or_app; now right|lia|exact P3|exact P4].
      * intros T. apply B. intros j Hj. destruct (Nat.lt_ge_cases j (length h)) as [|Lj]; [apply T; lia|]. rewrite !app_length in Hj.
        destruct (Nat.lt_ge_cases j (length h + length sums)) as [|Lj'].
        -- destruct (Hs (j - length h) ltac:(lia)) as [Ej _]. replace (length h + (j - length h)) with j in Ej by lia. rewrite Ej. apply Forall_nth_graph; [|exact Logic.I]. eapply add_n_tame; eauto.
        -- destruct (Ho (j - (length h + length sums)) ltac:(lia)) as [Ej _]. replace (length h + length sums + (j - (length h + length sums))) with j in Ej by lia. rewrite Ej.
           apply Forall_nth_graph; [|exact Logic.I]. eapply (op_gradient_tame D hf (length h0)); [exact U| |exact EO|exact Ho|intros a Ha; apply (N i a); auto; lia]. lia.
Qed.

(** The second pass: where something depends on the placeholders, its gradient does not. *)
Lemma backward_clean D hf h0 : well_formed h0 -> flows D hf (length h0) -> (forall i, i < length h0 -> (exists a, In a (arguments (nth i h0 (Const C0))) /\ D a) -> D i) ->
  (forall i, i < length h0 -> tame D (nth i h0 (Const C0))) ->
  forall m pending found h h' found', m <= length h0 -> extends h0 h -> extends h' hf -> (forall t g, In (t, g) pending -> D t -> ~ D g) -> (forall t g, In (t, g) found -> D t -> ~ D g) ->
  backward m pending found h = (h', found') -> forall t g, In (t, g) found' -> D t -> ~ D g.
Proof.
  intros W U UP T. induction m as [|i IH]; intros pending found h h' found' Hm X Xf P Q E; cbn [backward] in E.
  - now injection E as <- <-.
  - destruct (map snd (filter _ pending)) as [|g more] eqn:EM; [eapply (IH pending found h); eauto; lia|].
    destruct (add_n (length h) g more) as [sums total] eqn:EA. destruct (op_gradient _ total _) as [ops contributions] eqn:EO.
    rewrite (extends_nth _ _ _ X) in EO by lia. pose proof (extends_length _ _ X) as L0.
    pose proof (backward_extends _ _ _ _ _ _ E) as Xb. destruct (new_nodes_hold hf h sums ops h' Xb Xf) as [Hs Ho].
    pose proof (add_n_flows D hf (length h0) U more (length h) g sums total ltac:(lia) EA Hs) as FA.
    assert (CI : D i -> ~ D total).
    { intros Di Dt. apply FA in Dt. destruct Dt as [g' [G1 G2]]. rewrite <- EM in G1. apply pending_at in G1. exact (P i g' G1 Di G2). }
    apply (IH (contributions ++ pending) ((i, total) :: found) (h ++ sums ++ ops) h' found'); auto; [lia|eapply extends_trans; [exact X|apply extends_app]| |].
    + intros t g' Hp. apply in_app_or in Hp. destruct Hp as [Hp|Hp]; [|now apply P].
      apply (op_gradient_clean D hf (length h0) _ total (length h + length sums) ops contributions U ltac:(lia) EO Ho (T i ltac:(lia)) (fun Z => CI (UP i ltac:(lia) Z)) (t, g') Hp).
    + intros t g' [Eq|Hp]; [injection Eq as <- <-; exact CI|now apply Q].
Qed.

(** Together, for the two passes of [forward_mode_gradients]. *)
Lemma forward_mode_structure nan h ys xs gxs h' results : well_formed h -> in_graph h ys -> in_graph h gxs -> length gxs = length xs ->
  forward_mode_gradients nan h ys xs gxs = (h', results) ->
  well_formed h' /\ extends h h' /\ none_or_in h' results /\ length results = length ys /\
  Forall2 (fun y r => r = None <-> forall x, In x xs -> ~ depends h x y) ys results /\
  forall r u, In (Some r) results -> length h <= u < length h + length ys -> ~ depends h' u r.
Proof.
  intros W Y G L E. unfold forward_mode_gradients in E.
  set (n0 := length h) in *. set (k := length ys) in *. set (us := seq n0 k) in *. set (h1 := h ++ repeat (Const nan) k) in *.
  destruct (gradients h1 ys xs us) as [h2 dydxs] eqn:E1. destruct (fill_zeros h2 dydxs) as [h3 ids] eqn:E2.
  assert (W1 : well_formed h1) by (apply well_formed_app; [exact W|apply repeat_reads]).
  assert (L1 : length h1 = n0 + k) by (unfold h1; rewrite app_length, repeat_length; reflexivity).
  assert (X01 : extends h h1) by apply extends_app.
  assert (U1 : in_graph h1 us) by (apply Forall_forall; intros u Hu; apply in_seq in Hu; lia).
  destruct (gradients_ok _ _ _ _ _ _ W1 U1 E1) as [W2 [N2 [X2 Ld]]]. change (extends h1 h2) in X2.
  destruct (fill_zeros_ok (fun _ _ z => z) (fun _ _ z => z) _ _ _ _ W2 N2 E2) as [W3 [X3 [I3 [L3 [Z3 _]]]]].
  assert (X13 : extends h1 h3) by (eapply extends_trans; eauto).
  assert (X03 : extends h h3) by (eapply extends_trans; eauto).
  destruct (gradients_ok _ _ _ _ _ _ W3 (extends_in _ _ _ X03 G) E) as [W4 [N4 [X4 L4]]]. change (extends h3 h') in X4.
  assert (X0f : extends h h') by (eapply extends_trans; eauto). assert (X1f : extends h1 h') by (eapply extends_trans; eauto). assert (X2f : extends h2 h') by (eapply extends_trans; eauto).
  pose proof (extends_length _ _ X0f) as Lf0. pose proof (extends_length _ _ X1f) as Lf1. pose proof (extends_length _ _ X2) as Lf2. pose proof (extends_length _ _ X4) as Lf3. pose proof (extends_length _ _ X3) as Lf4.
  assert (NB : forall u a, In u us -> depends h' u a -> n0 <= a) by (intros u a Hu Da; apply (depends_le _ _ _ W4) in Da; apply in_seq in Hu; lia).
  assert (AB : forall i a, i < length h1 -> In a (arguments (nth i h1 (Const C0))) -> a < n0).
  { intros i a Hi Ha. destruct (Nat.lt_ge_cases i n0) as [Li|Li].
    - unfold h1 in Ha. rewrite app_nth1 in Ha by exact Li. pose proof (W i Li) as Wi. rewrite Forall_forall in Wi. specialize (Wi a Ha). lia.
    - exfalso. unfold h1 in Ha. rewrite app_nth2 in Ha by exact Li. replace (nth _ (repeat _ _) _) with (Const nan) in Ha; [exact Ha|]. symmetry.
      assert (Hr : i - length h < k) by (fold n0; lia). clear - Hr. revert Hr. generalize (i - length h). induction k as [|m IH]; intros [|j] Hr; cbn; try lia; auto. apply IH. lia. }
  assert (FL : forall u, In u us -> forall j, j < length h' -> j <> u -> (depends h' u j <-> exists a, In a (arguments (nth j h' (Const C0))) /\ depends h' u a)).
  { intros u Hu j Hj Nj. split; [intros Dj; apply depends_inv in Dj; destruct Dj as [->|[_ Dj]]; [congruence|exact Dj]|]. intros [a [Ha Da]]. eapply depends_through; eauto. }
  split; [exact W4|]. split; [exact X0f|]. split; [exact N4|]. split; [rewrite L4; unfold us; apply seq_length|].
  unfold gradients in E1. destruct (backward (length h1) (combine ys us) [] h1) as [hb found1] eqn:EB1. injection E1 as <- <-. split.
  - pose proof (gradients_none h3 ids us gxs h' results W3 I3 ltac:(rewrite L3, Ld; lia) E) as NN.
    assert (K : forall j, j < k -> (forall id, In id ids -> ~ depends h3 (n0 + j) id) <-> forall x, In x xs -> ~ depends h x (nth j ys 0)).
    { intros j Hj. assert (Hu : In (n0 + j) us) by (apply in_seq; lia).
      assert (FU : flows (depends h' (n0 + j)) h' (length h1)) by (intros i Hi1 Hi2; apply FL; [exact Hu|exact Hi2|lia]).
      destruct (backward_flows (depends h' (n0 + j)) h' h1 W1 FU ltac:(intros i a Hi Ha Da; specialize (AB i a Hi Ha); specialize (NB _ _ Hu Da); lia)
        (length h1) (combine ys us) [] h1 hb found1 (le_n _) (extends_refl _) X2f EB1) as [A _].
      assert (B : forall x g, In (x, g) found1 -> (depends h' (n0 + j) g <-> depends h1 x (nth j ys 0))).
      { intros x g Hx. destruct (A x g Hx) as [[]|[_ Q]]. rewrite Q. split.
        - intros [[y u] [P1 [P2 [P3 P4]]]]. cbn in *.
          destruct (In_nth _ _ (0, 0) P1) as [i [Hi Ei]]. rewrite combine_length in Hi. unfold us in Ei, Hi. rewrite seq_length in Hi. rewrite combine_nth in Ei by (rewrite seq_length; reflexivity).
          rewrite seq_nth in Ei by (unfold k in *; lia). injection Ei as Ey Eu. assert (u = n0 + j).
          { apply depends_inv in P3. destruct P3 as [->|[Lu [a [Ha Da]]]]; [reflexivity|]. rewrite (extends_nth _ _ _ X1f) in Ha by (unfold k in *; lia). specialize (AB u a ltac:(unfold k in *; lia) Ha). specialize (NB _ _ Hu Da). lia. }
          replace j with i by lia. now rewrite Ey.
        - intros Dx. exists (nth j ys 0, n0 + j). repeat split; [|cbn; unfold in_graph in Y; rewrite Forall_forall in Y; specialize (Y (nth j ys 0) (nth_In _ _ Hj)); fold n0 in Y; lia|apply depends_self|exact Dx].
          replace (n0 + j) with (nth j us 0) by (unfold us; apply seq_nth; exact Hj). rewrite <- combine_nth by (unfold us; now rewrite seq_length). apply nth_In. rewrite combine_length. unfold us. rewrite seq_length. fold k. lia. }
      (* an entry of ids is a gradient of the first pass, or a zero *)
      assert (Yj : nth j ys 0 < n0) by (unfold in_graph in Y; rewrite Forall_forall in Y; apply Y, nth_In, Hj).
      assert (C : forall x id, In (x, id) (combine xs ids) -> (depends h3 (n0 + j) id <-> depends h x (nth j ys 0))).
      { assert (FZ : forall l hh hh' ll, fill_zeros hh (map (fun x => lookup x found1) l) = (hh', ll) -> length hb <= length hh -> extends hh' h3 ->
          (forall i, length hb <= i < length h3 -> nth i h3 (Const C0) = Const C0) -> forall x id, In (x, id) (combine l ll) -> lookup x found1 = Some id \/ (lookup x found1 = None /\ length hb <= id < length h3)).
        { clear - X2 X3. induction l as [|x0 l IH]; intros hh hh' ll Ef Lh Xh Zh x id Hp; cbn [map fill_zeros] in Ef; [injection Ef as <- <-; destruct Hp|].
          destruct (lookup x0 found1) as [g0|] eqn:El; [destruct (fill_zeros hh _) as [hh1 l1] eqn:Ef1|destruct (fill_zeros (hh ++ [Const C0]) _) as [hh1 l1] eqn:Ef1]; injection Ef as <- <-; cbn [combine In] in Hp; destruct Hp as [Hp|Hp].
          - injection Hp as <- <-. now left.
          - eapply (IH hh hh1 l1); eauto.
          - injection Hp as <- <-. right. split; [exact El|]. split; [exact Lh|].
            assert (XX : forall l a b c, fill_zeros a l = (b, c) -> extends a b).
            { clear. induction l as [|[g|] l IH]; intros a b c Ef; cbn [fill_zeros] in Ef.
              - injection Ef as <- <-. apply extends_refl.
              - destruct (fill_zeros a l) as [b1 c1] eqn:E1. injection Ef as <- <-. eauto.
              - destruct (fill_zeros (a ++ [Const C0]) l) as [b1 c1] eqn:E1. injection Ef as <- <-. eapply extends_trans; [apply extends_app|eauto]. }
            pose proof (extends_length _ _ (extends_trans _ _ _ (XX _ _ _ _ Ef1) Xh)) as LL. rewrite app_length in LL. cbn in LL. lia.
          - eapply (IH (hh ++ [Const C0]) hh1 l1); eauto. rewrite app_length. lia. }
        intros x id Hp. destruct (FZ xs hb h3 ids E2 (le_n _) (extends_refl _) Z3 x id Hp) as [Lk|[Lk Hid]].
        - rewrite (depends_extends h3 h' _ _ W4 X4) by (unfold in_graph in I3; rewrite Forall_forall in I3; apply I3; eapply in_combine_r; eauto).
          rewrite (B x id (lookup_in _ _ _ Lk)). symmetry. apply depends_extends; [exact W1|exact X01|exact Yj].
        - split.
          + intros Dz. apply depends_inv in Dz. destruct Dz as [->|[_ [a [Ha _]]]]; [exfalso; lia|]. rewrite Z3 in Ha by exact Hid. destruct Ha.
          + intros Dx. exfalso. apply lookup_none in Lk. apply Lk. rewrite (backward_found h1 W1 _ _ _ _ _ _ (le_n _) (extends_refl h1) EB1 x). right. exists (nth j ys 0, n0 + j).
            repeat split; [|cbn; lia|cbn; apply (depends_extends h h1 _ _ W1 X01 Yj); exact Dx].
            replace (n0 + j) with (nth j us 0) by (unfold us; apply seq_nth; exact Hj). rewrite <- combine_nth by (unfold us; now rewrite seq_length). apply nth_In. rewrite combine_length. unfold us. rewrite seq_length. fold k. lia. }
      rewrite map_length in L3. split.
      - intros Nd x Hx Dx. destruct (In_nth _ _ 0 Hx) as [i [Hi Ei]]. apply (Nd (nth i ids 0)); [apply nth_In; lia|]. apply (C x); [|exact Dx].
        rewrite <- Ei, <- combine_nth by (symmetry; exact L3). apply nth_In. rewrite combine_length. lia.
      - intros Nd id Hid Dz. destruct (In_nth _ _ 0 Hid) as [i [Hi Ei]]. apply (Nd (nth i xs 0)); [apply nth_In; lia|]. apply (C _ id); [|exact Dz].
        rewrite <- Ei, <- combine_nth by (symmetry; exact L3). apply nth_In. rewrite combine_length. lia. }
    assert (Lr : length results = k) by (rewrite L4; unfold us; apply seq_length).
    assert (NN' : forall j, j < k -> nth j results None = None <-> forall id, In id ids -> ~ depends h3 (n0 + j) id).
    { intros j Hj. replace (n0 + j) with (nth j us 0) by (unfold us; apply seq_nth; exact Hj). assert (Lu : j < length us) by (unfold us; now rewrite seq_length).
      clear - NN Lu. revert j Lu. induction NN as [|u r us rs Hur NN IH]; intros [|j] Lu; cbn in *; try lia; [exact Hur|]. apply IH. lia. }
    assert (P : forall j, j < k -> nth j results None = None <-> forall x, In x xs -> ~ depends h x (nth j ys 0)) by (intros j Hj; rewrite (NN' j Hj); apply K; exact Hj).
    clear - P Lr. assert (L : length ys = length results) by (symmetry; exact Lr). clear Lr. unfold k in P. clear k. revert results L P.
    induction ys as [|y ys IH]; intros [|r results] L P; cbn in L; try discriminate; constructor; [apply (P 0); cbn; lia|]. apply IH; [lia|]. intros j Hj. apply (P (S j)). cbn. lia.
  - intros r u Hr Hu.
    set (D := fun i => exists u, In u us /\ depends h' u i).
    assert (D0 : forall a, a < n0 -> ~ D a) by (intros a Ha [v [Hv Dv]]; specialize (NB _ _ Hv Dv); lia).
    assert (FU : flows D h' (length h1)).
    { intros i Hi1 Hi2. unfold D. split.
      - intros [v [Hv Dv]]. assert (i <> v) by (apply in_seq in Hv; lia). apply (FL v Hv i Hi2 H) in Dv. destruct Dv as [a [Ha Da]]. eauto.
      - intros [a [Ha [v [Hv Dv]]]]. exists v. split; [exact Hv|]. eapply depends_through; eauto. }
    destruct (backward_flows D h' h1 W1 FU ltac:(intros i a Hi Ha; apply D0; exact (AB i a Hi Ha)) (length h1) (combine ys us) [] h1 hb found1 (le_n _) (extends_refl _) X2f EB1) as [_ TM].
    specialize (TM ltac:(intros; lia)).
    unfold gradients in E. destruct (backward (length h3) (combine ids gxs) [] h3) as [hc found2] eqn:EB2. injection E as <- <-.
    apply in_map_iff in Hr. destruct Hr as [v [Lv Hv]]. apply lookup_in in Lv.
    pose proof (backward_clean D hc h3 W3) as BC.
    intros Dr. revert Lv. intros Lv.
    refine (BC _ _ _ (length h3) (combine ids gxs) [] h3 hc found2 (le_n _) (extends_refl _) (extends_refl _) _ _ EB2 v r Lv _ _).
    + intros i Hi1 Hi2. apply FU; [|exact Hi2]. apply extends_length in X13. lia.
    + intros i Hi [a [Ha [w [Hw Dw]]]]. exists w. split; [exact Hw|]. apply (depends_through hc w i a); [lia| |exact Dw]. rewrite (extends_nth _ _ _ X4 Hi). exact Ha.
    + intros i Hi. destruct (Nat.lt_ge_cases i (length h1)) as [Li|Li].
      * rewrite (extends_nth _ _ _ X13 Li). pose proof (AB i) as ABi. destruct (nth i h1 (Const C0)) eqn:En; cbn [tame]; auto.
        -- intros [Da _]. apply (D0 a); [apply ABi; [exact Li|now left]|exact Da].
        -- apply D0, ABi; [exact Li|now left].
        -- apply D0, ABi; [exact Li|now left].
      * destruct (Nat.lt_ge_cases i (length hb)) as [Lb|Lb]; [|rewrite Z3 by lia; exact Logic.I].
        rewrite <- (extends_nth _ _ _ X4 Hi). apply TM. lia.
    + intros t g Hp _. apply D0. unfold in_graph in G. rewrite Forall_forall in G. apply G. eapply in_combine_r; eauto.
    + intros t g [].
    + exists v. split; [exact Hv|apply depends_self].
    + exists u. split; [apply in_seq; exact Hu|exact Dr].
Qed.

(** * Nodes for sums and the like *)
Section Nodes.
Context (H : nat -> nat -> C -> C) (F : nat -> nat -> R -> R) (env : nat -> C).
Notation value hf := (fun i => nth i (evaluate H F env hf) C0).

Lemma value_equation hf i : well_formed hf -> i < length hf -> value hf i = op_value H F env (value hf) (nth i hf (Const C0)).
Proof. intros W L. cbn. rewrite evaluate_perturbed, perturbed_equation by assumption. ring. Qed.
Lemma value_unperturbed hf n : well_formed hf -> unperturbed H F env (value hf) hf n.
Proof. intros W j _ L. now apply value_equation. Qed.
Lemma value_extends h hf i : extends h hf -> i < length h -> value hf i = value h i.
Proof. intros X L. cbn. rewrite !evaluate_perturbed. now apply extends_perturbed. Qed.

Lemma nth_of_map {A B} (f : A -> B) l j a d : j < length l -> nth j (map f l) d = f (nth j l a).
Proof. intros L. rewrite (nth_indep _ d (f a)) by (rewrite map_length; exact L). apply map_nth. Qed.
Definition op_reads (P : nat -> Prop) (o : op) : Prop := Forall P (arguments o).

Lemma elementwise_ok {A} (f : A -> op) h l h' ids : well_formed h -> Forall (fun a => op_reads (fun i => i < length h) (f a)) l -> elementwise f h l = (h', ids) ->
  well_formed h' /\ extends h h' /\ in_graph h' ids /\ length ids = length l /\
  forall hf, well_formed hf -> extends h' hf -> map (value hf) ids = map (fun a => op_value H F env (value hf) (f a)) l.
Proof.
  unfold elementwise. intros W R E. injection E as <- <-.
  split; [|split; [apply extends_app|split; [|split; [apply seq_length|]]]].
  - apply well_formed_app; [exact W|]. intros j Hj. rewrite map_length in Hj. destruct l as [|a0 l0] eqn:El; [cbn in Hj; lia|]. rewrite <- El in *.
    rewrite (nth_indep _ _ (f a0)), map_nth by (rewrite map_length; exact Hj). rewrite Forall_forall in R. eapply Forall_impl; [|apply R, nth_In, Hj]. cbn. lia.
  - apply Forall_forall. intros i Hi. apply in_seq in Hi. rewrite app_length, map_length. lia.
  - intros hf Wf X. apply nth_ext with C0 C0; [rewrite !map_length; apply seq_length|]. rewrite map_length, seq_length. intros j Hj.
    destruct l as [|a0 l0] eqn:El; [cbn in Hj; lia|]. rewrite <- El in *.
    rewrite (nth_of_map (value hf) _ j 0 C0), seq_nth by (rewrite ?seq_length; exact Hj).
    rewrite (nth_of_map (fun a => op_value H F env (value hf) (f a)) l j a0 C0) by exact Hj.
    rewrite value_equation; [|exact Wf|apply extends_length in X; rewrite app_length, map_length in X; lia].
    rewrite (extends_nth _ _ _ X) by (rewrite app_length, map_length; lia). rewrite app_nth2 by lia. replace (length h + j - length h) with j by lia.
    rewrite (nth_indep _ _ (f a0)), map_nth by (rewrite map_length; exact Hj). reflexivity.
Qed.
Lemma elementwise_depends {A} (f : A -> op) h l h' ids x a i : elementwise f h l = (h', ids) -> well_formed h' -> In a l -> In i (arguments (f a)) -> i < length h -> depends h x i ->
  exists j, In j ids /\ depends h' x j.
Proof.
  unfold elementwise. intros E W Ha Hi Li D. injection E as <- <-. destruct (In_nth _ _ a Ha) as [j [Hj Ej]]. exists (length h + j). split; [apply in_seq; lia|].
  apply (depends_through _ x _ i); [rewrite app_length, map_length; lia| |].
  - rewrite app_nth2 by lia. replace (length h + j - length h) with j by lia. rewrite (nth_indep _ _ (f a)), map_nth, Ej by (rewrite map_length; exact Hj). exact Hi.
  - apply (depends_extends h); auto. apply extends_app.
Qed.

Lemma reduce_sum_ok h l h' s : well_formed h -> in_graph h l -> reduce_sum h l = (h', s) ->
  well_formed h' /\ extends h h' /\ s < length h' /\ (forall hf, well_formed hf -> extends h' hf -> value hf s = Csum (value hf) l) /\
  forall x i, In i l -> depends h x i -> depends h' x s.
Proof.
  unfold reduce_sum. intros W G E. destruct l as [|first rest].
  - injection E as <- <-. split; [apply well_formed_app; [exact W|apply (repeat_reads _ C0 1)]|]. split; [apply extends_app|]. split; [rewrite app_length; cbn; lia|]. split; [|intros x i []].
    intros hf Wf X. rewrite value_equation; [|exact Wf|apply extends_length in X; rewrite app_length in X; cbn in X; lia].
    rewrite (extends_nth _ _ _ X) by (rewrite app_length; cbn; lia). rewrite app_nth2, Nat.sub_diag by lia. reflexivity.
  - destruct (add_n (length h) first rest) as [ops total] eqn:EA. injection E as <- <-. inversion G as [|? ? G1 G2]; subst.
    destruct (add_n_reads rest (length h) first ops total G1 G2 EA) as [R1 R2]. assert (W' : well_formed (h ++ ops)) by now apply well_formed_app.
    split; [exact W'|]. split; [apply extends_app|]. split; [rewrite app_length; lia|]. split.
    + intros hf Wf X. apply (add_n_ok H F env (value hf) hf (length h) (value_unperturbed hf _ Wf) rest (length h) first ops total (le_n _) EA).
      destruct (new_nodes_hold hf h ops [] hf ltac:(now rewrite app_nil_r) (extends_refl _)) as [A _]. exact A.
    + intros x i Hi D.
      destruct (Nat.lt_ge_cases x (length h)) as [Lx|Lx].
      * assert (FL : flows (depends (h ++ ops) x) (h ++ ops) (length h)).
        { intros j J1 J2. split; [intros Dj; apply depends_inv in Dj; destruct Dj as [->|[_ Dj]]; [lia|exact Dj]|]. intros [a [Ha Da]]. eapply depends_through; eauto. }
        apply (add_n_flows _ (h ++ ops) (length h) FL rest (length h) first ops total (le_n _) EA).
        -- destruct (new_nodes_hold (h ++ ops) h ops [] (h ++ ops) ltac:(rewrite app_nil_r; apply extends_refl) (extends_refl _)) as [A _]. exact A.
        -- exists i. split; [exact Hi|]. apply (depends_extends h); auto; [apply extends_app|]. unfold in_graph in G. rewrite Forall_forall in G. now apply G.
      * exfalso. apply (depends_le _ _ _ W) in D. unfold in_graph in G. rewrite Forall_forall in G. specialize (G i Hi). lia.
Qed.

Lemma reduce_mean_ok h l h' s : well_formed h -> in_graph h l -> reduce_mean h l = (h', s) ->
  well_formed h' /\ extends h h' /\ s < length h' /\ (forall hf, well_formed hf -> extends h' hf -> value hf s = (Csum (value hf) l * RtoC (/ INR (length l)))%C) /\
  forall x i, In i l -> depends h x i -> depends h' x s.
Proof.
  unfold reduce_mean. intros W G E. destruct (reduce_sum h l) as [h1 total] eqn:ES. destruct (reduce_sum_ok h l h1 total W G ES) as [W1 [X1 [L1 [V1 D1]]]]. injection E as <- <-.
  assert (W' : well_formed (h1 ++ [Const (RtoC (/ INR (length l))); Mul total (length h1)])).
  { apply well_formed_app; [exact W1|]. apply reads_below_cons; [apply Forall_nil|]. apply reads_below_cons; [repeat (apply Forall_cons; [lia|]); apply Forall_nil|apply reads_below_nil]. }
  split; [exact W'|]. split; [eapply extends_trans; [exact X1|apply extends_app]|]. split; [rewrite app_length; cbn; lia|].
  assert (N0 : nth (length h1) (h1 ++ [Const (RtoC (/ INR (length l))); Mul total (length h1)]) (Const C0) = Const (RtoC (/ INR (length l)))) by (rewrite app_nth2, Nat.sub_diag by lia; reflexivity).
  assert (N1 : nth (S (length h1)) (h1 ++ [Const (RtoC (/ INR (length l))); Mul total (length h1)]) (Const C0) = Mul total (length h1)) by (rewrite app_nth2 by lia; replace (S (length h1) - length h1) with 1 by lia; reflexivity).
  split.
  - intros hf Wf X. pose proof (extends_length _ _ X) as LX. rewrite app_length in LX. cbn in LX.
    rewrite value_equation, (extends_nth _ _ _ X), N1 by (rewrite ?app_length; cbn; auto; lia). cbn [op_value].
    rewrite (value_equation hf (length h1)), (extends_nth _ _ _ X), N0 by (rewrite ?app_length; cbn; auto; lia). cbn [op_value].
    rewrite V1; [reflexivity|exact Wf|]. eapply extends_trans; [apply extends_app|exact X].
  - intros x i Hi D. apply (depends_through _ x _ total); [rewrite app_length; cbn; lia|rewrite N1; now left|]. apply (depends_extends h1); auto; [apply extends_app|]. eauto.
Qed.

Lemma to_complex_ok n : forall l h, well_formed h -> none_or_in h l -> length l = 2 * n ->
  (In None l -> to_complex_nodes h l = Err ValueError) /\
  (~ In None l -> exists h' gs, to_complex_nodes h l = Ok (h', gs)) /\
  forall h' gs, to_complex_nodes h l = Ok (h', gs) -> well_formed h' /\ extends h h' /\ in_graph h' gs /\ length gs = n /\
    forall hf ds, well_formed hf -> extends h' hf -> length ds = n ->
      Rsum (fun p => inner (value hf (fst p)) (snd p)) (combine gs ds) = Rsum (fun p => inner (value_of (value hf) (fst p)) (snd p)) (combine l (parts ds)).
Proof.
  induction n as [|n IH]; intros l h W N L.
  - destruct l; [|cbn in L; lia]. cbn. split; [intros []|]. split; [eauto|]. intros h' gs E. injection E as <- <-. split; [exact W|]. split; [apply extends_refl|]. split; [constructor|]. split; [reflexivity|].
    intros hf [|d ds] _ _ Ld; [reflexivity|discriminate].
  - destruct l as [|r [|i t]]; try (cbn in L; lia). inversion N as [|? ? N1 N']; subst. inversion N' as [|? ? N2 N3]; subst.
    assert (Lt : length t = 2 * n) by (cbn in L; lia).
    destruct r as [r|], i as [i|]; cbn [to_complex_nodes].
    + assert (W1 : well_formed (h ++ [MakeComplex r i])).
      { apply well_formed_app; [exact W|]. apply reads_below_cons; [repeat (apply Forall_cons; [assumption|]); apply Forall_nil|apply reads_below_nil]. }
      destruct (IH t (h ++ [MakeComplex r i]) W1 ltac:(eapply Forall_impl; [|exact N3]; intros [g|]; [rewrite app_length; cbn; lia|auto]) Lt) as [A [B Q]].
      split; [intros [X|[X|X]]; [discriminate..|]; rewrite (A X); reflexivity|]. split.
      * intros Nn. destruct B as [h' [gs E]]; [intros X; apply Nn; now right; right|]. rewrite E. cbn. eauto.
      * intros h' gs E. destruct (to_complex_nodes (h ++ [MakeComplex r i]) t) as [[h1 gs1]|] eqn:E1; cbn in E; [|discriminate]. injection E as <- <-.
        destruct (Q h1 gs1 eq_refl) as [W' [X' [I' [L' V']]]]. pose proof (extends_length _ _ X') as LX. rewrite app_length in LX. cbn in LX.
        split; [exact W'|]. split; [eapply extends_trans; [apply extends_app|exact X']|]. split; [constructor; [lia|exact I']|]. split; [cbn; lia|].
        intros hf [|d ds] Wf Xf Ld; [discriminate|]. cbn [parts flat_map app combine]. rewrite !Rsum_cons. cbn [fst snd value_of].
        rewrite (V' hf ds Wf Xf ltac:(cbn in Ld; lia)). fold (parts ds). rewrite <- Rplus_assoc. f_equal.
        pose proof (extends_length _ _ Xf) as LXf.
        assert (E0 : value hf (length h) = (Re (value hf r), Re (value hf i))).
        { rewrite value_equation by (auto; lia). rewrite (extends_nth _ _ _ Xf) by lia. rewrite (extends_nth _ _ _ X') by (rewrite app_length; cbn; lia). rewrite app_nth2, Nat.sub_diag by lia. reflexivity. }
        cbn beta in E0. rewrite E0. unfold inner, Re, Im, RtoC. cbn. ring.
    + split; [reflexivity|]. split; [intros X; exfalso; apply X; right; now left|discriminate].
    + split; [reflexivity|]. split; [intros X; exfalso; apply X; now left|discriminate].
    + split; [reflexivity|]. split; [intros X; exfalso; apply X; now left|discriminate].
Qed.

Lemma parts_length ds : length (parts ds) = 2 * length ds.
Proof. induction ds as [|d ds IH]; [reflexivity|]. cbn [parts flat_map app length]. fold (parts ds). rewrite IH. lia. Qed.

Lemma Rsum_combine_range {A B} (q : A * B -> R) l l' a b : length l = length l' -> Rsum q (combine l l') = Rsum (fun j => q (nth j l a, nth j l' b)) (range (length l)).
Proof.
  revert l'. induction l as [|x l IH]; intros [|y l'] L; try discriminate; [reflexivity|]. cbn [combine length]. unfold range. cbn [seq]. rewrite !Rsum_cons. cbn [nth]. f_equal.
  rewrite (IH l') by (cbn in L; lia). unfold range. rewrite <- seq_shift, Rsum_map. reflexivity.
Qed.

(** A list is known from its inner products. *)
Lemma by_inner {A} (V : A -> C) (gs : list A) (c : nat -> C) n : length gs = n ->
  (forall ds, length ds = n -> Rsum (fun p => inner (V (fst p)) (snd p)) (combine gs ds) = Rsum (fun k => inner (c k) (nth k ds C0)) (range n)) ->
  map V gs = map c (range n).
Proof.
  intros L E. destruct gs as [|g0 gs0] eqn:Eg; [cbn in L; subst n; reflexivity|]. rewrite <- Eg in *.
  set (q := fun k => (V (nth k gs g0) - c k)%C). specialize (E (map q (range n)) ltac:(rewrite map_length; apply range_length)).
  rewrite (Rsum_combine_range _ gs _ g0 C0) in E by (rewrite map_length, range_length; exact L). rewrite L in E.
  assert (Z : Rsum (fun k => inner (q k) (q k)) (range n) = 0%R).
  { rewrite (Rsum_ext _ (fun k => inner (V (nth k gs g0)) (nth k (map q (range n)) C0) - inner (c k) (nth k (map q (range n)) C0))%R).
    - rewrite Rsum_minus. cbn [fst snd] in E. rewrite E. ring.
    - intros k Hk. apply in_seq in Hk. rewrite nth_map_range by lia. unfold q at 1. unfold inner, Re, Im, Cminus, Cplus, Copp. cbn. ring. }
  apply nth_ext with C0 C0; [rewrite !map_length, range_length; exact L|]. rewrite map_length. intros k Hk.
  rewrite nth_map_range by lia. rewrite (nth_indep _ C0 (V g0)), map_nth by (rewrite map_length; exact Hk).
  pose proof (squares_zero q (range n) Z k ltac:(apply in_seq; lia)) as Q. unfold q in Q. replace (V (nth k gs g0)) with ((V (nth k gs g0) - c k) + c k)%C by ring. rewrite Q. ring.
Qed.

Lemma inner_mult g o d : inner g (o * d)%C = inner (Cconj o * g)%C d.
Proof. unfold inner, Re, Im, Cmult, Cconj. cbn. ring. Qed.
Lemma inner_mult_conj g o d : inner g (o * Cconj d)%C = inner (o * Cconj g)%C d.
Proof. unfold inner, Re, Im, Cmult, Cconj. cbn. ring. Qed.

(** Reverse mode for complex weights, in terms of the tangents. *)
Lemma complex_gradients_ok h ys weights gys n : well_formed h -> in_graph h ys -> in_graph h gys -> length gys = length ys -> length weights = 2 * n ->
  ((exists w, In w weights /\ forall y, In y ys -> ~ depends h w y) -> complex_value_gradients h ys weights (Some gys) = Err ValueError) /\
  ((forall w, In w weights -> exists y, In y ys /\ depends h w y) -> exists h' gs, complex_value_gradients h ys weights (Some gys) = Ok (h', gs)) /\
  forall h' gs, complex_value_gradients h ys weights (Some gys) = Ok (h', gs) -> well_formed h' /\ extends h h' /\ in_graph h' gs /\ length gs = n /\
    forall hf ds, well_formed hf -> extends h' hf -> length ds = n ->
      Rsum (fun p => inner (value hf (fst p)) (snd p)) (combine gs ds) =
      Rsum (fun b => inner (value hf (nth b gys 0)) (nth (nth b ys 0%nat) (tangents H F (value hf) (along (combine weights (parts ds))) h) C0)) (range (length ys)).
Proof.
  intros W Y G L Lw. unfold complex_value_gradients. destruct (gradients h ys weights gys) as [h1 grads] eqn:EG.
  destruct (gradients_ok _ _ _ _ _ _ W G EG) as [W1 [N1 [X1 L1]]]. pose proof (gradients_none _ _ _ _ _ _ W Y L EG) as NN.
  destruct (to_complex_ok n grads h1 W1 N1 ltac:(lia)) as [A [B Q]].
  split; [|split].
  - intros [w [Hw Dw]]. apply A. clear - NN Hw Dw. induction NN as [|x g xs gs Hx NN IH]; [destruct Hw|]. destruct Hw as [->|Hw]; [left; now apply Hx|right; auto].
  - intros D. apply B. clear - NN D. intros X. induction NN as [|x g xs gs Hx NN IH]; [destruct X|]. destruct X as [->|X]; [|apply IH; [intros; apply D; now right|exact X]].
    destruct (D x (or_introl eq_refl)) as [y [Hy Dy]]. exact (proj1 Hx eq_refl y Hy Dy).
  - intros h' gs E. destruct (Q h' gs E) as [W' [X' [I' [L' V']]]]. split; [exact W'|]. split; [eapply extends_trans; eauto|]. split; [exact I'|]. split; [exact L'|].
    intros hf ds Wf Xf Ld. rewrite (V' hf ds Wf Xf Ld).
    pose proof (adjoint_values H F env (fun _ => C0) h ys weights gys h1 grads hf (parts ds) Wf ltac:(eapply extends_trans; eauto) W Y G EG ltac:(reflexivity) ltac:(rewrite parts_length; lia)) as AD.
    cbn zeta in AD. rewrite <- evaluate_perturbed in AD. rewrite <- AD. rewrite (Rsum_combine_range _ ys gys 0 0) by (symmetry; exact L). reflexivity.
Qed.

Lemma tangents_moves h hf delta y : well_formed hf -> extends h hf -> smooth H F h (evaluate H F env h) -> y < length h ->
  moves H F env h delta y (nth y (tangents H F (value hf) delta h) C0).
Proof.
  intros Wf X Sm Ly. pose proof (extends_well_formed _ _ X Wf) as W. rewrite (tangents_ext H F (value hf) (value h)); [|exact W|intros i Hi; apply value_extends; auto].
  now apply smooth_moves.
Qed.

(** The vector jacobian product. *)
Lemma vjp_values h0 h ys weights gys n O h' gs hf : well_formed h -> extends h0 h -> in_graph h0 ys -> in_graph h gys -> length gys = length ys -> length weights = 2 * n ->
  smooth H F h0 (evaluate H F env h0) -> jacobian H F env h0 ys weights n O -> complex_value_gradients h ys weights (Some gys) = Ok (h', gs) -> well_formed hf -> extends h' hf ->
  map (value hf) gs = map (fun k => Csum (fun b => (Cconj (nth k (nth b O []) C0) * value hf (nth b gys 0))%C) (range (length ys))) (range n).
Proof.
  intros W X0 Y G L Lw Sm J E Wf Xf. destruct (complex_gradients_ok h ys weights gys n W (extends_in _ _ _ X0 Y) G L Lw) as [_ [_ Q]]. destruct (Q h' gs E) as [W' [X' [I' [L' V']]]].
  apply by_inner; [exact L'|]. intros ds Ld. rewrite (V' hf ds Wf Xf Ld).
  rewrite (Rsum_ext _ (fun b => Rsum (fun k => inner (Cconj (nth k (nth b O []) C0) * value hf (nth b gys 0))%C (nth k ds C0)) (range n))).
  - rewrite Rsum_exchange. apply Rsum_ext. intros k _. now rewrite inner_Csum.
  - intros b Hb. apply in_seq in Hb. assert (Ly : nth b ys 0 < length h0) by (unfold in_graph in Y; rewrite Forall_forall in Y; apply Y, nth_In; lia).
    rewrite (extends_tangents _ _ _ _ _ _ _ X0 Ly).
    rewrite <- (moves_unique H F env h0 _ _ _ _ (J ds Ld b ltac:(lia)) (tangents_moves h0 hf _ _ Wf ltac:(eapply extends_trans; [exact X0|]; eapply extends_trans; eauto) Sm Ly)).
    unfold linear. rewrite inner_Csum_r. apply Rsum_ext. intros k _. apply inner_mult.
Qed.

Lemma vjp_values_conj h0 h ys weights gys n O h' gs hf : well_formed h -> extends h0 h -> in_graph h0 ys -> in_graph h gys -> length gys = length ys -> length weights = 2 * n ->
  smooth H F h0 (evaluate H F env h0) -> conjugate_jacobian H F env h0 ys weights n O -> complex_value_gradients h ys weights (Some gys) = Ok (h', gs) -> well_formed hf -> extends h' hf ->
  map (value hf) gs = map (fun k => Csum (fun b => (nth k (nth b O []) C0 * Cconj (value hf (nth b gys 0)))%C) (range (length ys))) (range n).
Proof.
  intros W X0 Y G L Lw Sm J E Wf Xf. destruct (complex_gradients_ok h ys weights gys n W (extends_in _ _ _ X0 Y) G L Lw) as [_ [_ Q]]. destruct (Q h' gs E) as [W' [X' [I' [L' V']]]].
  apply by_inner; [exact L'|]. intros ds Ld. rewrite (V' hf ds Wf Xf Ld).
  rewrite (Rsum_ext _ (fun b => Rsum (fun k => inner (nth k (nth b O []) C0 * Cconj (value hf (nth b gys 0)))%C (nth k ds C0)) (range n))).
  - rewrite Rsum_exchange. apply Rsum_ext. intros k _. now rewrite inner_Csum.
  - intros b Hb. apply in_seq in Hb. assert (Ly : nth b ys 0 < length h0) by (unfold in_graph in Y; rewrite Forall_forall in Y; apply Y, nth_In; lia).
    rewrite (extends_tangents _ _ _ _ _ _ _ X0 Ly).
    rewrite <- (moves_unique H F env h0 _ _ _ _ (J ds Ld b ltac:(lia)) (tangents_moves h0 hf _ _ Wf ltac:(eapply extends_trans; [exact X0|]; eapply extends_trans; eauto) Sm Ly)).
    unfold linear. rewrite inner_Csum_r. apply Rsum_ext. intros k Hk. apply in_seq in Hk. rewrite (nth_of_map Cconj ds k C0 C0) by lia. apply inner_mult_conj.
Qed.

(** * The loss and the mean of the predictions *)

(** [X] obeys the equations [Q] of the nodes from [n0] on: values and tangents do. *)
Definition obeys (X : nat -> C) (Q : op -> C) (hf : graph) (n0 : nat) : Prop := forall j, n0 <= j -> j < length hf -> X j = Q (nth j hf (Const C0)).
Lemma value_obeys hf n0 : well_formed hf -> obeys (value hf) (op_value H F env (value hf)) hf n0.
Proof. intros W j _ L. now apply value_equation. Qed.
Lemma tangents_obey V delta hf n0 : well_formed hf -> (forall i, n0 <= i -> delta i = C0) ->
  obeys (fun i => nth i (tangents H F V delta hf) C0) (op_tangent H F V (fun i => nth i (tangents H F V delta hf) C0)) hf n0.
Proof. intros W Z j L1 L2. rewrite tangents_equation by assumption. rewrite Z by exact L1. ring. Qed.

Lemma elementwise_obeys {A} X Q n0 (f : A -> op) h l h' ids hf : obeys X Q hf n0 -> n0 <= length h -> elementwise f h l = (h', ids) -> extends h' hf -> map X ids = map (fun a => Q (f a)) l.
Proof.
  unfold elementwise. intros Ob L E Xf. injection E as <- <-. apply nth_ext with C0 C0; [rewrite !map_length; apply seq_length|]. rewrite map_length, seq_length. intros j Hj.
  destruct l as [|a0 l0] eqn:El; [cbn in Hj; lia|]. rewrite <- El in *.
  rewrite (nth_of_map X _ j 0 C0), seq_nth by (rewrite ?seq_length; exact Hj). rewrite (nth_of_map (fun a => Q (f a)) l j a0 C0) by exact Hj.
  pose proof (extends_length _ _ Xf) as LX. rewrite app_length, map_length in LX. rewrite Ob by lia.
  rewrite (extends_nth _ _ _ Xf) by (rewrite app_length, map_length; lia). rewrite app_nth2 by lia. replace (length h + j - length h) with j by lia.
  rewrite (nth_of_map f l j a0) by exact Hj. reflexivity.
Qed.
Lemma add_n_obeys X Q n0 hf : obeys X Q hf n0 -> (forall a b, Q (Add a b) = (X a + X b)%C) -> forall rest n first ops total, n0 <= n -> add_n n first rest = (ops, total) -> holds hf n ops ->
  X total = Csum X (first :: rest).
Proof.
  intros Ob QA. induction rest as [|r t IH]; intros n first ops total L E Hh; cbn [add_n] in E.
  - injection E as <- <-. rewrite Csum_cons. unfold Csum. cbn. ring.
  - destruct (add_n (S n) n t) as [ops' total'] eqn:E'. injection E as <- <-.
    destruct (Hh 0 ltac:(cbn; lia)) as [E0 L0]. rewrite Nat.add_0_r in *. cbn [nth] in E0. pose proof (Ob n L L0) as Vn. rewrite E0, QA in Vn.
    change (Add first r :: ops') with ([Add first r] ++ ops') in Hh. apply holds_app in Hh. destruct Hh as [_ Hh]. cbn [length] in Hh. rewrite Nat.add_1_r in Hh.
    rewrite (IH (S n) n ops' total' ltac:(lia) E' Hh), !Csum_cons, Vn. ring.
Qed.
Lemma reduce_sum_obeys X Q n0 h l h' s hf : obeys X Q hf n0 -> (forall a b, Q (Add a b) = (X a + X b)%C) -> Q (Const C0) = C0 -> n0 <= length h -> reduce_sum h l = (h', s) -> extends h' hf ->
  X s = Csum X l.
Proof.
  unfold reduce_sum. intros Ob QA QC L E Xf. destruct l as [|first rest].
  - injection E as <- <-. pose proof (extends_length _ _ Xf) as LX. rewrite app_length in LX. cbn in LX. rewrite Ob by lia.
    rewrite (extends_nth _ _ _ Xf) by (rewrite app_length; cbn; lia). rewrite app_nth2, Nat.sub_diag by lia. exact QC.
  - destruct (add_n (length h) first rest) as [ops total] eqn:EA. injection E as <- <-.
    apply (add_n_obeys X Q n0 hf Ob QA rest (length h) first ops total L EA). destruct (new_nodes_hold hf h ops [] hf ltac:(now rewrite app_nil_r) (extends_refl _)) as [A _]. exact A.
Qed.

Lemma mean_tangent V delta h l h' s n0 hf : well_formed hf -> (forall i, n0 <= i -> delta i = C0) -> (forall i, V i = value hf i) -> n0 <= length h ->
  reduce_mean h l = (h', s) -> extends h' hf ->
  nth s (tangents H F V delta hf) C0 = (Csum (fun i => nth i (tangents H F V delta hf) C0) l * RtoC (/ INR (length l)))%C.
Proof.
  unfold reduce_mean. intros Wf Z EV L E Xf. destruct (reduce_sum h l) as [h1 total] eqn:ES. injection E as <- <-.
  set (T := fun i => nth i (tangents H F V delta hf) C0). pose proof (tangents_obey V delta hf n0 Wf Z) as Ob. fold T in Ob.
  assert (L1 : length h <= length h1).
  { unfold reduce_sum in ES. destruct l as [|a l]; [injection ES as <- <-; rewrite app_length; lia|]. destruct (add_n (length h) a l). injection ES as <- <-. rewrite app_length. lia. }
  pose proof (extends_length _ _ Xf) as LX. rewrite app_length in LX. cbn in LX.
  change (T (S (length h1)) = (Csum T l * RtoC (/ INR (length l)))%C).
  rewrite (Ob (S (length h1)) ltac:(lia) ltac:(lia)). rewrite (extends_nth _ _ _ Xf) by (rewrite app_length; cbn; lia). rewrite app_nth2 by lia. replace (S (length h1) - length h1) with 1 by lia. cbn [nth op_tangent].
  rewrite (Ob (length h1) ltac:(lia) ltac:(lia)). rewrite (extends_nth _ _ _ Xf) by (rewrite app_length; cbn; lia). rewrite app_nth2, Nat.sub_diag by lia. cbn [nth op_tangent].
  rewrite (EV (length h1)), (value_equation hf (length h1)) by (auto; lia). rewrite (extends_nth _ _ _ Xf) by (rewrite app_length; cbn; lia). rewrite app_nth2, Nat.sub_diag by lia. cbn [nth op_value].
  rewrite (reduce_sum_obeys T _ n0 h l h1 total hf Ob); auto; [ring|]. eapply extends_trans; [apply extends_app|exact Xf].
Qed.

(** Nodes that depend on nothing that moves. *)
Lemma still_tangent V delta h i : well_formed h -> i < length h -> (forall x, delta x <> C0 -> ~ depends h x i) -> nth i (tangents H F V delta h) C0 = C0.
Proof.
  intros W. induction i as [i IH] using lt_wf_ind. intros Hi N. rewrite tangents_equation by assumption. pose proof (W i Hi) as Wi. rewrite Forall_forall in Wi.
  assert (Z : delta i = C0).
  { destruct (Req_dec (Re (delta i)) 0) as [R1|R1], (Req_dec (Im (delta i)) 0) as [R2|R2]; [apply C_eq; assumption|..]; exfalso; apply (N i); try apply depends_self; intros Z; rewrite Z in *; auto. }
  rewrite Z. rewrite (op_tangent_ext H F V V _ (fun _ => C0)).
  - destruct (nth i h (Const C0)); cbn [op_tangent]; unfold C0, Cplus, Cmult, Cconj, Re, Im; cbn; f_equal; ring.
  - auto.
  - intros a Ha. specialize (Wi a Ha). apply IH; [exact Wi|lia|]. intros x Dx D. apply (N x Dx). eapply depends_through; eauto.
Qed.

Lemma along_outside pairs i : ~ In i (map fst pairs) -> along pairs i = C0.
Proof. induction pairs as [|p l IH]; intros N; [reflexivity|]. rewrite along_cons. cbn in N. destruct (Nat.eqb_spec (fst p) i); [tauto|]. rewrite IH by tauto. ring. Qed.
Lemma along_beyond h weights ds i : in_graph h weights -> length h <= i -> along (combine weights ds) i = C0.
Proof.
  intros Wt L. apply along_outside. intros X. apply in_map_iff in X. destruct X as [[w d] [E Hp]]. cbn in E. subst w. apply in_combine_l in Hp. unfold in_graph in Wt. rewrite Forall_forall in Wt. specialize (Wt i Hp). lia.
Qed.

Lemma inner_one w : inner C1 w = Re w.
Proof. unfold inner, C1, Re, Im. cbn. ring. Qed.

(** A real loss: the gradient starts from one. *)
Lemma loss_gradients_ok h loss weights n : well_formed h -> loss < length h -> in_graph h weights -> length weights = 2 * n ->
  ((forall w, In w weights -> depends h w loss) -> exists h' gs, complex_value_gradients h [loss] weights None = Ok (h', gs)) /\
  forall h' gs, complex_value_gradients h [loss] weights None = Ok (h', gs) -> well_formed h' /\ extends h h' /\ in_graph h' gs /\ length gs = n /\
    forall hf ds, well_formed hf -> extends h' hf -> length ds = n ->
      Rsum (fun p => inner (value hf (fst p)) (snd p)) (combine gs ds) = Re (nth loss (tangents H F (value hf) (along (combine weights (parts ds))) hf) C0).
Proof.
  intros W Ll Wt Lw.
  assert (W1 : well_formed (h ++ [Const C1])) by (apply well_formed_app; [exact W|apply (repeat_reads _ C1 1)]).
  assert (X1 : extends h (h ++ [Const C1])) by apply extends_app.
  assert (E1 : complex_value_gradients h [loss] weights None = complex_value_gradients (h ++ [Const C1]) [loss] weights (Some [length h])) by reflexivity.
  rewrite E1.
  assert (G1 : in_graph (h ++ [Const C1]) [length h]) by (apply Forall_cons; [rewrite app_length; cbn; lia|apply Forall_nil]).
  assert (Y1 : in_graph (h ++ [Const C1]) [loss]) by (apply Forall_cons; [rewrite app_length; cbn; lia|apply Forall_nil]).
  destruct (complex_gradients_ok (h ++ [Const C1]) [loss] weights [length h] n W1 Y1 G1 eq_refl Lw) as [_ [B Q]]. split.
  - intros D. apply B. intros w Hw. exists loss. split; [now left|]. apply (depends_extends h); auto.
  - intros h' gs E. destruct (Q h' gs E) as [W' [X' [I' [L' V']]]]. split; [exact W'|]. split; [eapply extends_trans; eauto|]. split; [exact I'|]. split; [exact L'|].
    intros hf ds Wf Xf Ld. rewrite (V' hf ds Wf Xf Ld). cbn [length]. unfold range. cbn [seq]. rewrite Rsum_cons, Rsum_nil, Rplus_0_r. cbn [nth].
    assert (Xh : extends (h ++ [Const C1]) hf) by (eapply extends_trans; eauto). pose proof (extends_length _ _ Xh) as LX. rewrite app_length in LX. cbn in LX.
    pose proof (value_equation hf (length h) Wf ltac:(lia)) as Vn. cbn beta in Vn. rewrite (extends_nth _ _ _ Xh) in Vn by (rewrite app_length; cbn; lia). rewrite app_nth2, Nat.sub_diag in Vn by lia. cbn [nth op_value] in Vn.
    rewrite Vn, inner_one. rewrite <- (extends_tangents H F _ _ _ hf _ Xh) by (rewrite app_length; lia). reflexivity.
Qed.

Lemma linear_conj n row ds : length ds = n -> Re (linear n row (map Cconj ds)) = Rsum (fun k => inner (nth k row C0) (nth k ds C0)) (range n).
Proof.
  intros L. unfold linear. rewrite <- inner_one, inner_Csum_r. apply Rsum_ext. intros k Hk. apply in_seq in Hk. rewrite (nth_of_map Cconj ds k C0 C0) by lia.
  unfold inner, C1, Re, Im, Cmult, Cconj. cbn. ring.
Qed.

Lemma mean_gradient_ok h ys weights n O : well_formed h -> in_graph h ys -> in_graph h weights -> length weights = 2 * n -> smooth H F h (evaluate H F env h) ->
  conjugate_jacobian H F env h ys weights n O ->
  ((forall w, In w weights -> exists y, In y ys /\ depends h w y) -> exists h' gs, mean_gradient h ys weights = Ok (h', gs)) /\
  forall h' gs, mean_gradient h ys weights = Ok (h', gs) -> well_formed h' /\ extends h h' /\ in_graph h' gs /\ length gs = n /\
    forall hf, well_formed hf -> extends h' hf -> map (value hf) gs = map (fun k => (Csum (fun b => nth k (nth b O []) C0) (range (length ys)) * RtoC (/ INR (length ys)))%C) (range n).
Proof.
  intros W Y Wt Lw Sm J. unfold mean_gradient. destruct (elementwise RealPart h ys) as [h1 reals] eqn:E1. destruct (reduce_mean h1 reals) as [h2 mean] eqn:E2.
  destruct (elementwise_ok RealPart h ys h1 reals W ltac:(eapply Forall_impl; [|exact Y]; intros a La; apply Forall_cons; [exact La|apply Forall_nil]) E1) as [W1 [X1 [I1 [L1 _]]]].
  destruct (reduce_mean_ok h1 reals h2 mean W1 I1 E2) as [W2 [X2 [L2 [_ D2]]]].
  assert (X02 : extends h h2) by (eapply extends_trans; eauto).
  destruct (loss_gradients_ok h2 mean weights n W2 L2 (extends_in _ _ _ X02 Wt) Lw) as [B Q]. split.
  - intros D. apply B. intros w Hw. destruct (D w Hw) as [y [Hy Dy]]. assert (Ly : y < length h) by (unfold in_graph in Y; rewrite Forall_forall in Y; now apply Y).
    destruct (elementwise_depends RealPart h ys h1 reals w y y E1 W1 Hy (or_introl eq_refl) Ly Dy) as [j [Hj Dj]]. eapply D2; eauto.
  - intros h' gs E. destruct (Q h' gs E) as [W' [X' [I' [L' V']]]]. split; [exact W'|]. split; [eapply extends_trans; eauto|]. split; [exact I'|]. split; [exact L'|].
    intros hf Wf Xf. apply by_inner; [exact L'|]. intros ds Ld. rewrite (V' hf ds Wf Xf Ld).
    set (delta := along (combine weights (parts ds))). set (T := fun i => nth i (tangents H F (value hf) delta hf) C0).
    assert (Z : forall i, length h <= i -> delta i = C0) by (intros i Hi; apply (along_beyond h); auto).
    assert (X2f : extends h2 hf) by (eapply extends_trans; eauto). assert (X1f : extends h1 hf) by (eapply extends_trans; eauto). assert (X0f : extends h hf) by (eapply extends_trans; eauto).
    rewrite (mean_tangent (value hf) delta h1 reals h2 mean (length h) hf Wf Z ltac:(reflexivity) ltac:(apply extends_length in X1; exact X1) E2 X2f). fold T. rewrite L1.
    pose proof (elementwise_obeys T _ (length h) RealPart h ys h1 reals hf (tangents_obey (value hf) delta hf _ Wf Z) (le_n _) E1 X1f) as ET. fold T in ET.
    assert (CS : Csum T reals = RtoC (Rsum (fun b => Rsum (fun k => inner (nth k (nth b O []) C0) (nth k ds C0)) (range n)) (range (length ys)))).
    { replace (Csum T reals) with (Csum (fun z => z) (map T reals)) by (clear; induction reals as [|a l IH]; [reflexivity|]; cbn [map]; rewrite !Csum_cons, IH; reflexivity).
      rewrite ET. cbn [op_tangent].
      transitivity (RtoC (Rsum (fun y => Re (T y)) ys)).
      { clear. induction ys as [|y ys IH]; [reflexivity|]. cbn [map]. rewrite Csum_cons, Rsum_cons, IH. unfold RtoC, Cplus, Re. cbn. f_equal; ring. }
      f_equal. transitivity (Rsum (fun b => Re (T (nth b ys 0))) (range (length ys))).
      { clear. induction ys as [|y ys IH]; [reflexivity|]. cbn [length]. unfold range in *. cbn [seq]. rewrite !Rsum_cons. cbn [nth]. f_equal. rewrite <- seq_shift, Rsum_map. cbn [nth]. exact IH. }
      apply Rsum_ext. intros b Hb. apply in_seq in Hb. assert (Ly : nth b ys 0 < length h) by (unfold in_graph in Y; rewrite Forall_forall in Y; apply Y, nth_In; lia).
      rewrite <- (linear_conj n (nth b O []) ds Ld). f_equal. symmetry. unfold T. rewrite (extends_tangents _ _ _ _ _ _ _ X0f Ly).
      exact (moves_unique H F env h _ _ _ _ (J ds Ld b ltac:(lia)) (tangents_moves h hf _ _ Wf X0f Sm Ly)). }
    rewrite CS. rewrite Rsum_exchange. unfold Re at 1, RtoC, Cmult. cbn [fst snd]. rewrite Rmult_0_r, Rminus_0_r, <- Rsum_scal_r. apply Rsum_ext. intros k _.
    transitivity (inner (Csum (fun b => nth k (nth b O []) C0) (range (length ys))) (nth k ds C0) * / INR (length ys))%R; [now rewrite inner_Csum|].
    unfold inner, RtoC, Re, Im, Cmult. cbn. ring.
Qed.

Lemma Csum_as_map {A} (f : A -> C) l : Csum f l = Csum (fun z => z) (map f l).
Proof. induction l as [|a l IH]; [reflexivity|]. cbn [map]. rewrite !Csum_cons, IH. reflexivity. Qed.
Lemma Rsum_range_nth {A} (f : A -> R) l d : Rsum f l = Rsum (fun b => f (nth b l d)) (range (length l)).
Proof. induction l as [|y l IH]; [reflexivity|]. cbn [length]. unfold range in *. cbn [seq]. rewrite !Rsum_cons. cbn [nth]. f_equal. rewrite <- seq_shift, Rsum_map. exact IH. Qed.
Lemma Csum_range_nth {A} (f : A -> C) l d : Csum f l = Csum (fun b => f (nth b l d)) (range (length l)).
Proof.
  induction l as [|y l IH]; [reflexivity|]. cbn [length]. unfold range in *. cbn [seq]. rewrite !Csum_cons. cbn [nth]. f_equal. rewrite <- seq_shift, IH.
  rewrite (Csum_as_map _ (map S _)), map_map, <- Csum_as_map. reflexivity.
Qed.
Lemma const_ok c h : well_formed h -> well_formed (h ++ [Const c]) /\ extends h (h ++ [Const c]) /\ length h < length (h ++ [Const c]) /\
  forall hf, well_formed hf -> extends (h ++ [Const c]) hf -> value hf (length h) = c.
Proof.
  intros W. split; [apply well_formed_app; [exact W|apply (repeat_reads _ c 1)]|]. split; [apply extends_app|]. split; [rewrite app_length; cbn; lia|].
  intros hf Wf X. pose proof (extends_length _ _ X) as LX. rewrite app_length in LX. cbn in LX. rewrite value_equation by (auto; lia).
  rewrite (extends_nth _ _ _ X) by (rewrite app_length; cbn; lia). rewrite app_nth2, Nat.sub_diag by lia. reflexivity.
Qed.
Lemma const_tangent V delta c h hf n0 : well_formed hf -> (forall i, n0 <= i -> delta i = C0) -> n0 <= length h -> extends (h ++ [Const c]) hf -> nth (length h) (tangents H F V delta hf) C0 = C0.
Proof.
  intros Wf Z L X. pose proof (extends_length _ _ X) as LX. rewrite app_length in LX. cbn in LX. pose proof (tangents_obey V delta hf n0 Wf Z (length h) L ltac:(lia)) as E. cbn beta in E. rewrite E.
  rewrite (extends_nth _ _ _ X) by (rewrite app_length; cbn; lia). rewrite app_nth2, Nat.sub_diag by lia. reflexivity.
Qed.
Lemma in_graph_nth h l j : in_graph h l -> j < length l -> nth j l 0 < length h.
Proof. intros G L. unfold in_graph in G. rewrite Forall_forall in G. apply G, nth_In, L. Qed.
Lemma reads_all {A} (f : A -> op) n l : (forall a, In a l -> forall i, In i (arguments (f a)) -> i < n) -> Forall (fun a => op_reads (fun i => i < n) (f a)) l.
Proof. intros R. apply Forall_forall. intros a Ha. apply Forall_forall. intros i Hi. eapply R; eauto. Qed.

Lemma re_scale s r : Re (RtoC 2 * RtoC s * RtoC r) = (s * (2 * r))%R.
Proof. unfold Re, RtoC, Cmult. cbn. ring. Qed.
Lemma inner_scale z d r : (inner z d * r)%R = inner (z * RtoC r)%C d.
Proof. unfold inner, RtoC, Re, Im, Cmult. cbn. ring. Qed.
Lemma energy_loss_gradient_ok h ys targets weights n O : well_formed h -> in_graph h ys -> in_graph h targets -> in_graph h weights -> length targets = length ys -> length weights = 2 * n ->
  smooth H F h (evaluate H F env h) -> conjugate_jacobian H F env h ys weights n O -> (forall w t, In w weights -> In t targets -> ~ depends h w t) ->
  ((forall w, In w weights -> exists y, In y ys /\ depends h w y) -> exists h' gs, energy_loss_gradient h ys targets weights = Ok (h', gs)) /\
  forall h' gs, energy_loss_gradient h ys targets weights = Ok (h', gs) ->
    map (value h') gs = map (fun k => (Csum (fun b => Cconj (nth k (nth b O []) C0) * Cconj (value h (nth b targets 0%nat))) (range (length ys)) * RtoC (/ INR (length ys)))%C) (range n).
Proof.
  intros W Y Tg Wt Lt Lw Sm J Nt. unfold energy_loss_gradient.
  destruct (elementwise (fun p => Mul (fst p) (snd p)) h (combine ys targets)) as [h1 products] eqn:E1.
  destruct (elementwise RealPart h1 products) as [h2 reals] eqn:E2. cbn zeta.
  destruct (elementwise (Mul (length h2)) (h2 ++ [Const (RtoC 2)]) reals) as [h4 losses] eqn:E4.
  destruct (reduce_mean h4 losses) as [h5 loss] eqn:E5.
  assert (R1 : Forall (fun p => op_reads (fun i => i < length h) (Mul (fst p) (snd p))) (combine ys targets)).
  { apply reads_all. intros [y t] Hp i Hi. unfold in_graph in *. rewrite Forall_forall in Y, Tg. cbn in Hi. destruct Hi as [<-|[<-|[]]]; [apply Y; eapply in_combine_l; eauto|apply Tg; eapply in_combine_r; eauto]. }
  destruct (elementwise_ok _ h _ h1 products W R1 E1) as [W1 [X1 [I1 [L1 V1]]]]. rewrite combine_length, Lt, Nat.min_id in L1.
  destruct (elementwise_ok RealPart h1 products h2 reals W1 ltac:(apply reads_all; intros a Ha i [<-|[]]; unfold in_graph in I1; rewrite Forall_forall in I1; auto) E2) as [W2 [X2 [I2 [L2 V2]]]].
  destruct (const_ok (RtoC 2) h2 W2) as [W3 [X3 [L3 V3]]].
  destruct (elementwise_ok (Mul (length h2)) (h2 ++ [Const (RtoC 2)]) reals h4 losses W3
    ltac:(apply reads_all; intros a Ha i [<-|[<-|[]]]; [exact L3|pose proof (extends_in _ _ _ X3 I2) as I2'; unfold in_graph in I2'; rewrite Forall_forall in I2'; auto]) E4) as [W4 [X4 [I4 [L4 V4]]]].
  destruct (reduce_mean_ok h4 losses h5 loss W4 I4 E5) as [W5 [X5 [L5 [V5 D5]]]].
  assert (X34 : extends h2 h4) by (eapply extends_trans; eauto). assert (X24 : extends h1 h4) by (eapply extends_trans; eauto). assert (X25 : extends h1 h5) by (eapply extends_trans; eauto).
  assert (X05 : extends h h5) by (eapply extends_trans; eauto).
  destruct (loss_gradients_ok h5 loss weights n W5 L5 (extends_in _ _ _ X05 Wt) Lw) as [B Q]. split.
  - intros D. destruct B as [h6 [gs E6]].
    + intros w Hw. destruct (D w Hw) as [y [Hy Dy]]. assert (Ly : y < length h) by (unfold in_graph in Y; rewrite Forall_forall in Y; now apply Y).
      destruct (In_nth _ _ 0 Hy) as [b [Hb Eb]].
      destruct (elementwise_depends _ h _ h1 products w (y, nth b targets 0) y E1 W1) as [j [Hj Dj]]; auto.
      { rewrite <- Eb, <- combine_nth by (symmetry; exact Lt). apply nth_In. rewrite combine_length. lia. }
      { now left. }
      destruct (elementwise_depends RealPart h1 products h2 reals w j j E2 W2 Hj (or_introl eq_refl) ltac:(unfold in_graph in I1; rewrite Forall_forall in I1; auto) Dj) as [j2 [Hj2 Dj2]].
      assert (Lj2 : j2 < length h2) by (unfold in_graph in I2; rewrite Forall_forall in I2; auto).
      destruct (elementwise_depends (Mul (length h2)) (h2 ++ [Const (RtoC 2)]) reals h4 losses w j2 j2 E4 W4 Hj2 (or_intror (or_introl eq_refl)) ltac:(lia) (proj1 (depends_extends h2 _ w j2 W3 X3 Lj2) Dj2)) as [j4 [Hj4 Dj4]].
      eapply D5; eauto.
    + rewrite E6. cbn. unfold elementwise. eauto.
  - intros h' gs E. destruct (complex_value_gradients h5 [loss] weights None) as [[h6 grads]|] eqn:E6; cbn [bind] in E; [|discriminate].
    destruct (Q h6 grads eq_refl) as [W6 [X6 [I6 [L6 V6]]]]. cbn zeta in E.
    destruct (elementwise Conj h6 grads) as [h7 conjugates] eqn:E7.
    assert (E8 : elementwise (fun c => Mul c (length h7)) (h7 ++ [Const (RtoC (/ 2))]) conjugates = (h', gs)) by congruence. clear E. rename E8 into E.
    destruct (elementwise_ok Conj h6 grads h7 conjugates W6 ltac:(apply reads_all; intros a Ha i [<-|[]]; unfold in_graph in I6; rewrite Forall_forall in I6; auto) E7) as [W7 [X7 [I7 [L7 V7]]]].
    destruct (const_ok (RtoC (/ 2)) h7 W7) as [W8 [X8 [L8 V8]]].
    destruct (elementwise_ok (fun c => Mul c (length h7)) (h7 ++ [Const (RtoC (/ 2))]) conjugates h' gs W8
      ltac:(apply reads_all; intros a Ha i [<-|[<-|[]]]; [pose proof (extends_in _ _ _ X8 I7) as I7'; unfold in_graph in I7'; rewrite Forall_forall in I7'; auto|exact L8]) E) as [W9 [X9 [I9 [L9 V9]]]].
    assert (X79 : extends h7 h') by (eapply extends_trans; eauto). assert (X69 : extends h6 h') by (eapply extends_trans; eauto). assert (X59 : extends h5 h') by (eapply extends_trans; eauto).
    assert (X49 : extends h4 h') by (eapply extends_trans; eauto). assert (X39 : extends (h2 ++ [Const (RtoC 2)]) h') by (eapply extends_trans; eauto). assert (X29 : extends h2 h') by (eapply extends_trans; eauto).
    assert (X19 : extends h1 h') by (eapply extends_trans; eauto). assert (X09 : extends h h') by (eapply extends_trans; eauto).
    assert (GV : map (value h') grads = map (fun k => (Csum (fun b => nth k (nth b O []) C0 * value h (nth b targets 0%nat)) (range (length ys)) * RtoC (2 * / INR (length ys)))%C) (range n)).
    { apply by_inner; [exact L6|]. intros ds Ld. rewrite (V6 h' ds W9 X69 Ld).
      set (delta := along (combine weights (parts ds))). set (T := fun i => nth i (tangents H F (value h') delta h') C0).
      assert (Z : forall i, length h <= i -> delta i = C0) by (intros i Hi; apply (along_beyond h); auto).
      pose proof (tangents_obey (value h') delta h' _ W9 Z) as Ob. fold T in Ob.
      pose proof (extends_length _ _ X1) as LX1. pose proof (extends_length _ _ X2) as LX2. pose proof (extends_length _ _ X3) as LX3. pose proof (extends_length _ _ X4) as LX4.
      rewrite (mean_tangent (value h') delta h4 losses h5 loss (length h) h' W9 Z ltac:(reflexivity) ltac:(lia) E5 X59). fold T. rewrite L4, L2, L1.
      pose proof (elementwise_obeys T _ (length h) (fun p => Mul (fst p) (snd p)) h (combine ys targets) h1 products h' Ob (le_n _) E1 X19) as ET1.
      pose proof (elementwise_obeys T _ (length h) RealPart h1 products h2 reals h' Ob ltac:(lia) E2 X29) as ET2.
      pose proof (elementwise_obeys T _ (length h) (Mul (length h2)) (h2 ++ [Const (RtoC 2)]) reals h4 losses h' Ob ltac:(lia) E4 X49) as ET4.
      cbn [op_tangent] in ET1, ET2, ET4.
      pose proof (const_tangent (value h') delta (RtoC 2) h2 h' (length h) W9 Z ltac:(lia) X39) as C2. change (T (length h2) = C0) in C2.
      pose proof (V3 h' W9 X39) as C2v. cbn beta in C2v.
      rewrite (Csum_as_map T losses), ET4.
      assert (S4 : Csum (fun z => z) (map (fun a => (value h' (length h2) * T a + T (length h2) * value h' a)%C) reals) = (RtoC 2 * Csum (fun z => z) (map T reals))%C).
      { clear - C2 C2v. induction reals as [|a l IH]; [unfold Csum; cbn; ring|]. cbn [map]. rewrite !Csum_cons, IH, C2, C2v. ring. }
      change (map T reals = map (fun a => RtoC (Re (T a))) products) in ET2. rewrite S4, ET2. clear S4.
      assert (S2 : Csum (fun z => z) (map (fun a => RtoC (Re (T a))) products) = RtoC (Rsum (fun z => Re z) (map T products))).
      { clear. induction products as [|y l IH]; [reflexivity|]. cbn [map]. rewrite Csum_cons, Rsum_cons, IH. unfold RtoC, Cplus, Re. cbn. f_equal; ring. }
      rewrite S2, ET1. clear S2. rewrite Rsum_map, (Rsum_combine_range _ ys targets 0 0) by (symmetry; exact Lt). cbn [fst snd].
      rewrite (Rsum_ext _ (fun b => Rsum (fun k => inner (nth k (nth b O []) C0 * value h (nth b targets 0%nat))%C (nth k ds C0)) (range n))).
      2: { intros b Hb. apply in_seq in Hb. pose proof (in_graph_nth _ _ b Y ltac:(lia)) as Ly. pose proof (in_graph_nth _ _ b Tg ltac:(lia)) as Lt'.
           assert (Ty : T (nth b ys 0) = linear n (nth b O []) (map Cconj ds)).
           { unfold T. rewrite (extends_tangents _ _ _ _ _ _ _ X09 Ly). symmetry.
             exact (moves_unique H F env h _ _ _ _ (J ds Ld b ltac:(lia)) (tangents_moves h h' _ _ W9 X09 Sm Ly)). }
           assert (Tt : T (nth b targets 0) = C0).
           { unfold T. rewrite (extends_tangents _ _ _ _ _ _ _ X09 Lt'). apply still_tangent; [exact W|exact Lt'|]. intros x Dx. apply Nt; [|apply nth_In; lia].
             destruct (in_dec Nat.eq_dec x weights) as [|Nx]; [assumption|]. exfalso. apply Dx. apply along_outside. intros Xx. apply Nx. apply in_map_iff in Xx. destruct Xx as [[a c] [<- Hp]]. eapply in_combine_l; eauto. }
           rewrite Ty, Tt. rewrite (value_extends h h' _ X09 Lt'). unfold linear. set (t := nth (nth b targets 0) (evaluate H F env h) C0).
           replace (nth (nth b ys 0) (evaluate H F env h') C0 * C0 + Csum _ _ * t)%C with (t * Csum (fun k => (nth k (nth b O []) C0 * nth k (map Cconj ds) C0)%C) (range n))%C by ring.
           rewrite <- Csum_scal, <- inner_one, inner_Csum_r. apply Rsum_ext. intros k Hk. apply in_seq in Hk. rewrite (nth_of_map Cconj ds k C0 C0) by lia. unfold inner, C1, Re, Im, Cmult, Cconj. cbn. ring. }
      rewrite Rsum_exchange, re_scale. rewrite <- Rsum_scal_r. apply Rsum_ext. intros k _. rewrite <- inner_Csum. apply inner_scale. }
    rewrite (V9 h' W9 (extends_refl _)). cbn [op_value]. rewrite (V8 h' W9 X9).
    rewrite <- (map_map (value h') (fun z => (z * RtoC (/ 2))%C)), (V7 h' W9 X79). cbn [op_value]. rewrite <- (map_map (value h') Cconj), GV, !map_map. apply map_ext. intros k.
    rewrite (Csum_ext (fun b => (Cconj (nth k (nth b O []) C0) * Cconj (nth (nth b targets 0%nat) (evaluate H F env h) C0))%C) (fun b => Cconj (nth k (nth b O []) C0 * nth (nth b targets 0%nat) (evaluate H F env h) C0)%C))
      by (intros b _; symmetry; apply Cconj_mult).
    rewrite <- Csum_conj. generalize (Csum (fun b => (nth k (nth b O []) C0 * nth (nth b targets 0%nat) (evaluate H F env h) C0)%C) (range (length ys))) as z. intros z. generalize (/ INR (length ys))%R as r. intros r.
    unfold Cconj, Cmult, RtoC, Re, Im. cbn. f_equal; field.
Qed.

(** * The product with the covariance matrix *)
Lemma parts_values hf vector ids : map (value hf) ids = map (fun o => op_value H F env (value hf) o) (flat_map (fun k => [RealPart k; ImagPart k]) vector) ->
  map (value hf) ids = parts (map (value hf) vector).
Proof. intros ->. induction vector as [|k l IH]; [reflexivity|]. cbn [flat_map app map parts op_value]. fold (parts (map (value hf) l)). rewrite IH. reflexivity. Qed.

Lemma map_combine_range {A B D} (q : A * B -> D) l l' a b : length l = length l' -> map q (combine l l') = map (fun j => q (nth j l a, nth j l' b)) (range (length l)).
Proof.
  revert l'. induction l as [|x l IH]; intros [|y l'] L; try discriminate; [reflexivity|]. cbn [combine length map]. unfold range. cbn [seq map]. cbn [nth]. f_equal.
  rewrite (IH l') by (cbn in L; lia). unfold range. rewrite <- seq_shift, map_map. reflexivity.
Qed.

Lemma jvp_ok nan h0 h ys cw vector n O h' jvp : well_formed h -> extends h0 h -> in_graph h0 ys -> in_graph h0 cw -> in_graph h vector -> length cw = 2 * n -> length vector = n ->
  smooth H F h0 (evaluate H F env h0) -> jacobian H F env h0 ys cw n O -> jacobian_vector_product nan h ys cw vector = (h', jvp) ->
  well_formed h' /\ extends h h' /\ none_or_in h' jvp /\ length jvp = length ys /\
  Forall2 (fun y r => r = None <-> forall x, In x cw -> ~ depends h0 x y) ys jvp /\
  forall hf, well_formed hf -> extends h' hf -> map (value_of (value hf)) jvp = map (fun b => linear n (nth b O []) (map (value hf) vector)) (range (length ys)).
Proof.
  intros W X0 Y Wt Vg Lw Lv Sm J E. unfold jacobian_vector_product in E.
  destruct (elementwise (fun o => o) h (flat_map (fun k => [RealPart k; ImagPart k]) vector)) as [h1 gxs] eqn:E1.
  assert (R1 : Forall (fun o => op_reads (fun i => i < length h) o) (flat_map (fun k => [RealPart k; ImagPart k]) vector)).
  { apply (reads_all (fun o => o)). intros o Ho i Hi. apply in_flat_map in Ho. destruct Ho as [k [Hk Ho]]. unfold in_graph in Vg. rewrite Forall_forall in Vg. cbn in Ho.
    destruct Ho as [<-|[<-|[]]]; cbn in Hi; destruct Hi as [<-|[]]; auto. }
  destruct (elementwise_ok (fun o => o) h _ h1 gxs W R1 E1) as [W1 [X1 [I1 [L1 V1]]]].
  assert (Lg : length gxs = length cw) by (rewrite L1, Lw, <- Lv; clear; induction vector as [|a l IH]; [reflexivity|]; cbn [flat_map app length]; rewrite IH; lia).
  assert (X01 : extends h0 h1) by (eapply extends_trans; eauto).
  destruct (forward_mode_structure nan h1 ys cw gxs h' jvp W1 (extends_in _ _ _ X01 Y) I1 Lg E) as [W' [X' [N' [L' [D' _]]]]].
  split; [exact W'|]. split; [eapply extends_trans; eauto|]. split; [exact N'|]. split; [exact L'|]. split.
  - clear - D' W1 X01 Y. unfold in_graph in Y. induction D' as [|y r ys rs Hy D' IH]; constructor; inversion Y as [|? ? Y1 Y2]; subst; [|now apply IH].
    rewrite Hy. split; intros N x Hx Dx; apply (N x Hx); apply (depends_extends h0 h1 x y W1 X01 Y1); exact Dx.
  - intros hf Wf Xf. pose proof (forward_mode_jvp H F env nan h1 ys cw gxs h' jvp hf Wf Xf W1 (extends_in _ _ _ X01 Y) (extends_in _ _ _ X01 Wt) I1 Lg E) as FJ. cbn zeta in FJ. rewrite <- evaluate_perturbed in FJ. rewrite FJ.
    pose proof (parts_values hf vector gxs (V1 hf Wf ltac:(eapply extends_trans; eauto))) as PV. rewrite PV.
    apply nth_ext with C0 C0; [rewrite !map_length, range_length; reflexivity|]. rewrite map_length. intros b Hb. rewrite nth_map_range by exact Hb.
    rewrite (nth_of_map _ ys b 0 C0) by exact Hb. pose proof (in_graph_nth _ _ b Y Hb) as Ly. rewrite (extends_tangents _ _ _ _ _ _ _ X01 Ly). symmetry.
    refine (moves_unique H F env h0 _ _ _ _ (J (map (value hf) vector) ltac:(rewrite map_length; exact Lv) b Hb) (tangents_moves h0 hf _ _ Wf _ Sm Ly)).
    eapply extends_trans; [exact X01|]. eapply extends_trans; eauto.
Qed.

Lemma product_via_jvp_ok nan h ys weights cw vector shift n O : well_formed h -> in_graph h ys -> in_graph h weights -> in_graph h cw -> in_graph h vector -> shift < length h ->
  length weights = 2 * n -> length cw = 2 * n -> length vector = n -> 0 < n -> smooth H F h (evaluate H F env h) ->
  conjugate_jacobian H F env h ys weights n O -> jacobian H F env h ys cw n O ->
  (forall w, In w (weights ++ cw) -> exists y, In y ys /\ depends h w y) ->
  exists h' out, product_via_jvp_nodes nan h ys weights cw vector shift = Ok (h', out) /\
    map (value h') out = map (fun k =>
      (Csum (fun b => Cconj (nth k (nth b O []) C0) *
          (linear n (nth b O []) (map (value h) vector) -
           Csum (fun l => value h (nth l vector 0%nat) * (Csum (fun b => nth l (nth b O []) C0) (range (length ys)) * RtoC (/ INR (length ys)))) (range n))) (range (length ys)) * RtoC (/ INR (length ys)) +
       value h (nth k vector 0%nat) * value h shift)%C) (range n).
Proof.
  intros W Y Wt Cw Vg Ls Lw Lc Lv Hn Sm CJ J D. unfold product_via_jvp_nodes.
  destruct (mean_gradient_ok h ys weights n O W Y Wt Lw Sm CJ) as [ME MQ].
  destruct (ME (fun w Hw => D w ltac:(apply in_or_app; now left))) as [h1 [means E1]]. rewrite E1. cbn [bind].
  destruct (MQ h1 means E1) as [W1 [X1 [I1 [L1 V1]]]].
  destruct (jacobian_vector_product nan h1 ys cw vector) as [h2 jvp] eqn:E2.
  destruct (jvp_ok nan h h1 ys cw vector n O h2 jvp W1 X1 Y Cw (extends_in _ _ _ X1 Vg) Lc Lv Sm J E2) as [W2 [X2 [N2 [L2 [D2 V2]]]]].
  assert (NF : forallb (fun g => match g with Some _ => false | None => true end) jvp = false).
  { destruct cw as [|w cw0]; [cbn in Lc; lia|]. destruct (D w ltac:(apply in_or_app; right; now left)) as [y [Hy Dy]]. clear - D2 Hy Dy.
    induction D2 as [|y' r ys rs Hr D2 IH]; [destruct Hy|]. cbn [forallb]. destruct Hy as [->|Hy].
    - destruct r as [r|]; [reflexivity|]. exfalso. exact (proj1 Hr eq_refl w (or_introl eq_refl) Dy).
    - rewrite (IH Hy). apply andb_false_r. }
  rewrite NF. destruct (fill_zeros h2 jvp) as [h3 js] eqn:E3.
  destruct (fill_zeros_ok H F _ _ _ _ W2 N2 E3) as [W3 [X3 [I3 [L3 [_ V3]]]]].
  destruct (elementwise (fun p => Mul (fst p) (snd p)) h3 (combine vector means)) as [h4 products] eqn:E4.
  assert (X03 : extends h h3) by (eapply extends_trans; [exact X1|]; eapply extends_trans; eauto). assert (X13 : extends h1 h3) by (eapply extends_trans; eauto).
  assert (R4 : Forall (fun p => op_reads (fun i => i < length h3) (Mul (fst p) (snd p))) (combine vector means)).
  { apply reads_all. intros [a c] Hp i Hi. pose proof (extends_in _ _ _ X03 Vg) as A. pose proof (extends_in _ _ _ X13 I1) as B. unfold in_graph in A, B. rewrite Forall_forall in A, B. cbn in Hi.
    destruct Hi as [<-|[<-|[]]]; [apply A; eapply in_combine_l; eauto|apply B; eapply in_combine_r; eauto]. }
  destruct (elementwise_ok (fun p => Mul (fst p) (snd p)) h3 _ h4 products W3 R4 E4) as [W4 [X4 [I4 [L4 V4]]]].
  destruct (reduce_sum h4 products) as [h5 remainder] eqn:E5.
  destruct (reduce_sum_ok h4 products h5 remainder W4 I4 E5) as [W5 [X5 [L5 [V5 _]]]]. cbn zeta.
  set (h6 := h5 ++ [Const (RtoC (-1)); Mul remainder (length h5)]).
  assert (W6 : well_formed h6).
  { apply well_formed_app; [exact W5|]. apply reads_below_cons; [apply Forall_nil|]. apply reads_below_cons; [repeat (apply Forall_cons; [lia|]); apply Forall_nil|apply reads_below_nil]. }
  assert (L6 : length h6 = S (S (length h5))) by (unfold h6; rewrite app_length; cbn; lia).
  assert (X6 : extends h5 h6) by apply extends_app.
  assert (V6 : forall hf, well_formed hf -> extends h6 hf -> value hf (S (length h5)) = (value hf remainder * RtoC (-1))%C).
  { intros hf Wf X. pose proof (extends_length _ _ X) as LX.
    rewrite (value_equation hf (S (length h5))) by (auto; lia). rewrite (extends_nth _ _ _ X) by lia. unfold h6. rewrite app_nth2 by lia. replace (S (length h5) - length h5) with 1 by lia. cbn [nth op_value].
    rewrite (value_equation hf (length h5)) by (auto; lia). rewrite (extends_nth _ _ _ X) by lia. unfold h6. rewrite app_nth2, Nat.sub_diag by lia. reflexivity. }
  destruct (elementwise (fun y => Add y (S (length h5))) h6 js) as [h7 ok_v] eqn:E7.
  assert (X36 : extends h3 h6) by (eapply extends_trans; [exact X4|]; eapply extends_trans; eauto).
  destruct (elementwise_ok (fun y => Add y (S (length h5))) h6 js h7 ok_v W6
    ltac:(apply reads_all; intros a Ha i [<-|[<-|[]]]; [pose proof (extends_in _ _ _ X36 I3) as A; unfold in_graph in A; rewrite Forall_forall in A; auto|lia]) E7) as [W7 [X7 [I7 [L7 V7]]]].
  assert (X37 : extends h3 h7) by (eapply extends_trans; eauto). assert (X07 : extends h h7) by (eapply extends_trans; eauto).
  assert (Lo : length ok_v = length ys) by lia.
  destruct (complex_gradients_ok h7 ys cw ok_v n W7 (extends_in _ _ _ X07 Y) I7 Lo Lc) as [_ [VE VQ]].
  destruct VE as [h8 [vjp E8]].
  { intros w Hw. destruct (D w ltac:(apply in_or_app; now right)) as [y [Hy Dy]]. exists y. split; [exact Hy|]. apply (depends_extends h h7 w y W7 X07); [|exact Dy]. unfold in_graph in Y. rewrite Forall_forall in Y. auto. }
  rewrite E8. cbn [bind]. destruct (VQ h8 vjp E8) as [W8 [X8 [I8 [L8 _]]]]. cbn zeta.
  destruct (const_ok (RtoC (/ INR (length ys))) h8 W8) as [W9 [X9 [L9 V9]]]. set (h9 := h8 ++ [Const (RtoC (/ INR (length ys)))]) in *.
  destruct (elementwise (fun g => Mul g (length h8)) h9 vjp) as [h10 quotients] eqn:E10.
  destruct (elementwise_ok (fun g => Mul g (length h8)) h9 vjp h10 quotients W9
    ltac:(apply reads_all; intros a Ha i [<-|[<-|[]]]; [pose proof (extends_in _ _ _ X9 I8) as A; unfold in_graph in A; rewrite Forall_forall in A; auto|exact L9]) E10) as [W10 [X10 [I10 [L10 V10]]]].
  assert (X08 : extends h h8) by (eapply extends_trans; eauto). assert (X09 : extends h h9) by (eapply extends_trans; eauto). assert (X010 : extends h h10) by (eapply extends_trans; eauto).
  destruct (elementwise (fun k => Mul k shift) h10 vector) as [h11 shifted] eqn:E11.
  destruct (elementwise_ok (fun k => Mul k shift) h10 vector h11 shifted W10
    ltac:(apply reads_all; intros a Ha i [<-|[<-|[]]]; [pose proof (extends_in _ _ _ X010 Vg) as A; unfold in_graph in A; rewrite Forall_forall in A; auto|apply extends_length in X010; lia]) E11) as [W11 [X11 [I11 [L11 V11]]]].
  destruct (elementwise (fun p => Add (fst p) (snd p)) h11 (combine quotients shifted)) as [h12 out] eqn:E12.
  exists h12, out. split; [reflexivity|].
  assert (R12 : Forall (fun p => op_reads (fun i => i < length h11) (Add (fst p) (snd p))) (combine quotients shifted)).
  { apply reads_all. intros [a c] Hp i Hi. pose proof (extends_in _ _ _ X11 I10) as A. pose proof I11 as B. unfold in_graph in A, B. rewrite Forall_forall in A, B. cbn in Hi.
    destruct Hi as [<-|[<-|[]]]; [apply A; eapply in_combine_l; eauto|apply B; eapply in_combine_r; eauto]. }
  destruct (elementwise_ok (fun p => Add (fst p) (snd p)) h11 _ h12 out W11 R12 E12) as [W12 [X12 [I12 [L12 V12]]]].
  assert (X10f : extends h10 h12) by (eapply extends_trans; eauto). assert (X9f : extends h9 h12) by (eapply extends_trans; eauto). assert (X8f : extends h8 h12) by (eapply extends_trans; eauto).
  assert (X7f : extends h7 h12) by (eapply extends_trans; eauto). assert (X6f : extends h6 h12) by (eapply extends_trans; eauto). assert (X5f : extends h5 h12) by (eapply extends_trans; eauto).
  assert (X4f : extends h4 h12) by (eapply extends_trans; eauto). assert (X3f : extends h3 h12) by (eapply extends_trans; eauto). assert (X2f : extends h2 h12) by (eapply extends_trans; eauto).
  assert (X1f : extends h1 h12) by (eapply extends_trans; eauto). assert (X0f : extends h h12) by (eapply extends_trans; eauto).
  set (V := value h12).
  assert (Vh : forall i, i < length h -> V i = value h i) by (intros i Hi; apply value_extends; auto).
  assert (Vv : map V vector = map (value h) vector).
  { apply map_ext_in. intros a Ha. apply Vh. unfold in_graph in Vg. rewrite Forall_forall in Vg. auto. }
  assert (Vmean : map V means = map (fun k => (Csum (fun b => nth k (nth b O []) C0) (range (length ys)) * RtoC (/ INR (length ys)))%C) (range n)) by (apply V1; auto).
  assert (U4 : map V products = map (fun p => (V (fst p) * V (snd p))%C) (combine vector means)) by exact (V4 h12 W12 X4f).
  assert (U5 : V remainder = Csum V products) by exact (V5 h12 W12 X5f).
  assert (U6 : V (S (length h5)) = (V remainder * RtoC (-1))%C) by exact (V6 h12 W12 X6f).
  assert (U7 : map V ok_v = map (fun y => (V y + V (S (length h5)))%C) js) by exact (V7 h12 W12 X7f).
  assert (U9 : V (length h8) = RtoC (/ INR (length ys))) by exact (V9 h12 W12 X9f).
  assert (U10 : map V quotients = map (fun g => (V g * V (length h8))%C) vjp) by exact (V10 h12 W12 X10f).
  assert (U11 : map V shifted = map (fun k => (V k * V shift)%C) vector) by exact (V11 h12 W12 X12).
  assert (U12 : map V out = map (fun p => (V (fst p) + V (snd p))%C) (combine quotients shifted)) by exact (V12 h12 W12 (extends_refl _)).
  assert (U8 : map V vjp = map (fun k => Csum (fun b => (Cconj (nth k (nth b O []) C0) * V (nth b ok_v 0))%C) (range (length ys))) (range n))
    by exact (vjp_values h h7 ys cw ok_v n O h8 vjp h12 W7 X07 Y I7 Lo Lc Sm J E8 W12 X8f).
  assert (U2 : map (value_of V) jvp = map (fun b => linear n (nth b O []) (map V vector)) (range (length ys))) by exact (V2 h12 W12 X2f).
  assert (U3 : map V js = map (value_of V) jvp).
  { pose proof (V3 env (fun _ => C0) h12 W12 X3f ltac:(reflexivity)) as A. cbn zeta in A. rewrite <- evaluate_perturbed in A. exact A. }
  clear V1 V2 V3 V4 V5 V6 V7 V9 V10 V11 V12.
  set (rem := Csum (fun l => value h (nth l vector 0%nat) * (Csum (fun b => nth l (nth b O []) C0) (range (length ys)) * RtoC (/ INR (length ys))))%C (range n)).
  assert (Vrem : V remainder = rem).
  { rewrite U5, Csum_as_map, U4, (map_combine_range _ vector means 0 0) by lia. rewrite <- Csum_as_map, Lv. cbn [fst snd]. apply Csum_ext. intros l Hl. apply in_seq in Hl.
    rewrite (Vh (nth l vector 0)) by (apply in_graph_nth; [exact Vg|lia]). f_equal.
    rewrite <- (nth_of_map V means l 0 C0) by lia. rewrite Vmean, nth_map_range by lia. reflexivity. }
  assert (Vok : map V ok_v = map (fun b => (linear n (nth b O []) (map (value h) vector) - rem)%C) (range (length ys))).
  { rewrite U7, <- (map_map V (fun z => (z + V (S (length h5)))%C)), U3, U2, map_map. apply map_ext. intros b. rewrite Vv, U6, Vrem.
    replace (RtoC (-1)) with (- C1)%C by (unfold RtoC, Copp, C1; cbn; f_equal; ring). ring. }
  rewrite U12, (map_combine_range _ quotients shifted 0 0) by lia. rewrite L10, L8. apply map_ext_in. intros k Hk. apply in_seq in Hk. cbn [fst snd]. f_equal.
  - rewrite <- (nth_of_map V quotients k 0 C0) by lia. rewrite U10, (nth_of_map _ vjp k 0 C0) by lia. rewrite U9. f_equal.
    rewrite <- (nth_of_map V vjp k 0 C0) by lia. rewrite U8, nth_map_range by lia. apply Csum_ext. intros b Hb. apply in_seq in Hb. f_equal.
    rewrite <- (nth_of_map V ok_v b 0 C0) by lia. rewrite Vok, nth_map_range by lia. reflexivity.
  - rewrite <- (nth_of_map V shifted k 0 C0) by lia. rewrite U11, (nth_of_map _ vector k 0 C0) by lia.
    rewrite (Vh shift Ls), (Vh (nth k vector 0)) by (apply in_graph_nth; [exact Vg|lia]). reflexivity.
Qed.
End Nodes.
