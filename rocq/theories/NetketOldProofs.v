(** Lemmas about the path for the old NetKet interface. *)
From Coq Require Import List ZArith Reals Lia Bool Arith.
From Verif Require Import Base Cplx LatticeSpec NetketModel NetketProofs NetketOldModel NetketOldSpec.
Import ListNotations.

Lemma upd_mid {A} (a : list A) x b v : upd (a ++ x :: b) (length a) v = a ++ v :: b.
Proof. induction a as [|y a IH]; cbn; [reflexivity|]. now rewrite IH. Qed.
Lemma nth_mid {A} (a : list A) x b d : nth (length a) (a ++ x :: b) d = x.
Proof. rewrite app_nth2, Nat.sub_diag by lia. reflexivity. Qed.

Lemma change_ok sites : forall vals c, Forall (fun p => p < length c) sites -> change c (combine sites vals) = Ok (changed c (sites, vals)).
Proof.
  induction sites as [|p sites IH]; intros vals c F; [reflexivity|]. destruct vals as [|v vals]; [reflexivity|]. inversion F; subst.
  cbn [combine change]. destruct (Nat.ltb_spec p (length c)); [|lia]. rewrite IH; [reflexivity|]. now rewrite upd_length.
Qed.

Fixpoint last_empty (j : nat) (l : list (list nat * list Z)) (self : option nat) : option nat :=
  match l with [] => self | (idx, _) :: t => last_empty (S j) t (match idx with [] => Some j | _ => self end) end.

Lemma fill_ok s z l : forall a m self, (forall c, In c l -> Forall (fun p => p < length s) (fst c)) -> length l <= m ->
  fill s (length a) l (a ++ repeat z m) self = Ok (a ++ map (changed s) l ++ repeat z (m - length l), last_empty (length a) l self).
Proof.
  induction l as [|[idx vals] l IH]; intros a m self F L.
  - cbn. now rewrite Nat.sub_0_r.
  - destruct m as [|m]; [cbn in L; lia|]. cbn [fill repeat length last_empty map]. rewrite change_ok by (apply (F (idx, vals)); now left). cbn [bind].
    rewrite app_length. cbn [length]. destruct (Nat.ltb_spec (length a) (length a + S (length (repeat z m)))); [|lia].
    rewrite upd_mid. replace (a ++ changed s (idx, vals) :: repeat z m) with ((a ++ [changed s (idx, vals)]) ++ repeat z m) by now rewrite <- app_assoc.
    replace (S (length a)) with (length (a ++ [changed s (idx, vals)])) by (rewrite app_length; cbn; lia).
    rewrite IH; [|intros c I; apply F; now right|cbn in L; lia]. rewrite <- app_assoc. cbn [app Nat.sub]. reflexivity.
Qed.

Lemma last_empty_at k l : forall j self, (forall i, i < length l -> (nth i (map fst l) [] = [] <-> j + i = k)) ->
  last_empty j l self = if (j <=? k) && (k <? j + length l) then Some k else self.
Proof.
  induction l as [|[idx vals] l IH]; intros j self H.
  - cbn [last_empty length]. rewrite Nat.add_0_r. destruct (Nat.leb_spec j k), (Nat.ltb_spec k j); try lia; reflexivity.
  - cbn [last_empty length]. rewrite IH.
    + pose proof (H 0 (Nat.lt_0_succ _)) as H0. cbn [map fst nth] in H0. rewrite Nat.add_0_r in H0.
      destruct idx as [|p idx].
      * assert (j = k) by now apply H0. subst k. destruct (Nat.leb_spec (S j) j); [lia|]. cbn [andb]. destruct (Nat.leb_spec j j), (Nat.ltb_spec j (j + S (length l))); try lia. reflexivity.
      * assert (j <> k) by (intros E; apply H0 in E; discriminate).
        destruct (Nat.leb_spec (S j) k), (Nat.ltb_spec k (S j + length l)), (Nat.leb_spec j k), (Nat.ltb_spec k (j + S (length l))); try lia; reflexivity.
    + intros i I. specialize (H (S i)). cbn [length map nth] in H. rewrite H by lia. lia.
Qed.

Lemma map_fst_combine {A B} (a : list A) : forall b : list B, length a <= length b -> map fst (combine a b) = a.
Proof. induction a as [|x a IH]; intros [|y b] L; cbn in *; try lia; [reflexivity|reflexivity|]. rewrite IH by lia. reflexivity. Qed.
Lemma map_snd_combine {A B} (b : list B) : forall a : list A, length b <= length a -> map snd (combine a b) = b.
Proof. induction b as [|x b IH]; intros [|y a] L; cbn in *; try lia; [reflexivity|reflexivity|]. rewrite IH by lia. reflexivity. Qed.

(** A report taken apart. *)
Lemma report_parts g s k : reports g s k -> exists mels idx vals, g s = (mels, idx, vals) /\ length (translated g s) = length mels /\
  map fst (translated g s) = map (changed s) (combine idx vals) /\ map snd (translated g s) = mels /\ length (combine idx vals) = length mels /\ k < length mels /\
  (forall c, In c (combine idx vals) -> Forall (fun p => p < length s) (fst c)) /\ last_empty 0 (combine idx vals) None = Some k /\
  nth k (map (changed s) (combine idx vals)) [] = s.
Proof.
  intros (mels & idx & vals & E & L1 & L2 & F & K & U). exists mels, idx, vals.
  assert (LC : length (combine idx vals) = length mels) by (rewrite combine_length; lia).
  assert (LM : length (map (changed s) (combine idx vals)) = length mels) by now rewrite map_length.
  unfold translated. rewrite E. split; [reflexivity|]. split; [rewrite combine_length; lia|]. split; [apply map_fst_combine; lia|]. split; [apply map_snd_combine; lia|].
  split; [exact LC|]. split; [lia|]. split; [|split].
  - intros [a b] I. apply F. exact (in_combine_l _ _ _ _ I).
  - rewrite (last_empty_at k).
    + destruct (Nat.leb_spec 0 k), (Nat.ltb_spec k (0 + length (combine idx vals))); try lia. reflexivity.
    + intros i I. rewrite map_fst_combine by lia. apply U. lia.
  - rewrite (nth_indep _ [] (changed s ([], []))) by lia. rewrite map_nth, combine_nth by lia. rewrite (proj2 (U k K) eq_refl). reflexivity.
Qed.

Definition conns_of (g : old_get_conn) (est : nat) (s : list Z) : list (list Z) :=
  map fst (translated g s) ++ repeat (repeat 0%Z (length s)) (est - length (translated g s)).
Definition mels_of (g : old_get_conn) (est : nat) (s : list Z) : list C :=
  map snd (translated g s) ++ repeat C0 (est - length (translated g s)).

Lemma loop_ok g est todo : forall dc dm, length dm = length dc -> (forall s, In s todo -> reports g s 0) -> (forall s, In s todo -> length (translated g s) <= est) ->
  old_loop false g est (length dc) todo (dc ++ map (fun s : list Z => repeat (repeat 0%Z (length s)) est) todo) (dm ++ map (fun _ => repeat C0 est) todo) =
  Ok (inr (dc ++ map (conns_of g est) todo, dm ++ map (mels_of g est) todo)).
Proof.
  induction todo as [|s todo IH]; intros dc dm LD R L; [reflexivity|].
  destruct (report_parts g s 0 (R s (or_introl eq_refl))) as (mels & idx & vals & E & LT & M1 & M2 & LC & _ & F & LE & _).
  pose proof (L s (or_introl eq_refl)) as Ls. cbn [old_loop map]. rewrite E. destruct (Nat.ltb_spec est (length mels)); [lia|].
  rewrite nth_mid. pose proof (fill_ok s (repeat 0%Z (length s)) (combine idx vals) [] est None F ltac:(lia)) as FO. cbn [app length] in FO. rewrite FO, LE. cbn [bind fst snd].
  rewrite upd_mid. rewrite <- LD at 2. rewrite upd_mid.
  replace (map (changed s) (combine idx vals) ++ repeat (repeat 0%Z (length s)) (est - length (combine idx vals))) with (conns_of g est s) by (unfold conns_of; rewrite M1, LT, LC; reflexivity).
  replace (mels ++ repeat C0 (est - length mels)) with (mels_of g est s) by (unfold mels_of; rewrite M2, LT; reflexivity).
  specialize (IH (dc ++ [conns_of g est s]) (dm ++ [mels_of g est s])). rewrite <- !app_assoc in IH. cbn [app] in IH.
  replace (S (length dc)) with (length (dc ++ [conns_of g est s])) by (rewrite app_length; cbn; lia). apply IH.
  - rewrite !app_length. cbn. lia.
  - intros t I. apply R. now right.
  - intros t I. apply L. now right.
Qed.
Lemma loop_restart g est todo : forall dc dm, length dm = length dc -> (forall s, In s todo -> reports g s 0) -> (exists s, In s todo /\ est < length (translated g s)) ->
  exists s, In s todo /\ est < length (translated g s) /\
  old_loop false g est (length dc) todo (dc ++ map (fun s : list Z => repeat (repeat 0%Z (length s)) est) todo) (dm ++ map (fun _ => repeat C0 est) todo) =
  Ok (inl (length (translated g s))).
Proof.
  induction todo as [|s todo IH]; intros dc dm LD R X; [destruct X as (s & [] & _)|].
  destruct (report_parts g s 0 (R s (or_introl eq_refl))) as (mels & idx & vals & E & LT & M1 & M2 & LC & _ & F & LE & _).
  destruct (Nat.lt_ge_cases est (length (translated g s))) as [B|B].
  - exists s. split; [now left|]. split; [exact B|]. cbn [old_loop map]. rewrite E. destruct (Nat.ltb_spec est (length mels)); [|lia]. now rewrite LT.
  - destruct X as (x & [<-|I] & B2); [lia|].
    destruct (IH (dc ++ [conns_of g est s]) (dm ++ [mels_of g est s])) as (y & IY & BY & RY).
    + rewrite !app_length. cbn. lia.
    + intros t J. apply R. now right.
    + now exists x.
    + exists y. split; [now right|]. split; [exact BY|]. rewrite <- RY. rewrite <- !app_assoc. cbn [app].
      cbn [old_loop map]. rewrite E. destruct (Nat.ltb_spec est (length mels)); [lia|].
      rewrite nth_mid. pose proof (fill_ok s (repeat 0%Z (length s)) (combine idx vals) [] est None F ltac:(lia)) as FO. cbn [app length] in FO. rewrite FO, LE. cbn [bind fst snd].
      rewrite upd_mid. rewrite <- LD at 2. rewrite upd_mid.
      replace (map (changed s) (combine idx vals) ++ repeat (repeat 0%Z (length s)) (est - length (combine idx vals))) with (conns_of g est s) by (unfold conns_of; rewrite M1, LT, LC; reflexivity).
      replace (mels ++ repeat C0 (est - length mels)) with (mels_of g est s) by (unfold mels_of; rewrite M2, LT; reflexivity).
      replace (S (length dc)) with (length (dc ++ [conns_of g est s])) by (rewrite app_length; cbn; lia). reflexivity.
Qed.

Lemma filter_strict {A} (p q : A -> bool) l : (forall x, q x = true -> p x = true) -> (exists x, In x l /\ p x = true /\ q x = false) ->
  length (filter q l) < length (filter p l).
Proof.
  intros S. assert (G : forall l, length (filter q l) <= length (filter p l)).
  { intros l0. induction l0 as [|a t IH]; cbn; [lia|]. destruct (q a) eqn:Q; [rewrite (S a Q); cbn; lia|]. destruct (p a); cbn; lia. }
  induction l as [|a t IH]; intros (x & I & P & Q); [destruct I|]. cbn. destruct I as [->|I].
  - rewrite P, Q. cbn. specialize (G t). lia.
  - assert (K : length (filter q t) < length (filter p t)) by (apply IH; eauto). destruct (q a) eqn:QA; [rewrite (S a QA); cbn; lia|]. destruct (p a); cbn; lia.
Qed.

Lemma nth_pad {A} (l : list A) n z k d : k < n -> nth k (l ++ repeat z (n - length l)) d = nth k l z.
Proof.
  intros K. destruct (Nat.lt_ge_cases k (length l)) as [B|B].
  - rewrite app_nth1 by exact B. now apply nth_indep.
  - rewrite app_nth2 by exact B. rewrite (nth_overflow l) by exact B. rewrite (nth_indep _ d z) by (rewrite repeat_length; lia). apply nth_repeat.
Qed.

Lemma fuel_ok g sample : sample <> [] -> (forall s, In s sample -> reports g s 0) -> forall fuel W,
  length (filter (fun s => estimated W <? length (translated g s)) sample) < fuel ->
  old_find_conn_fuel fuel false g W sample = new_netket_find_conn (translated g) W sample.
Proof.
  intros NE R. assert (RI : forall s, In s sample -> reports_itself (translated g) s).
  { intros s I. destruct (report_parts g s 0 (R s I)) as (mels & idx & vals & E & LT & M1 & M2 & LC & K & _ & _ & N).
    destruct (translated g s) as [|[c m] rest] eqn:T; [cbn in LT; lia|]. exists m, rest. rewrite <- M1 in N. cbn [map fst nth] in N. rewrite T, N. reflexivity. }
  induction fuel as [|fuel IH]; intros W B; [lia|]. cbn [old_find_conn_fuel].
  destruct (Exists_dec (fun s => estimated W < length (translated g s)) sample (fun s => lt_dec _ _)) as [X|X].
  - apply Exists_exists in X. destruct (loop_restart g (estimated W) sample [] [] eq_refl R X) as (s & I & BS & EQ). cbn [app length] in EQ. rewrite EQ. cbn [bind].
    rewrite IH.
    + unfold new_netket_find_conn. rewrite (collect_ok _ _ RI). cbn [bind]. destruct sample as [|s0 sample]; [contradiction|]. cbn [map numpy_max bind estimated should_calc_unused].
      assert (Q : length (translated g s) <= fold_right Nat.max 0 (map (@length _) (map (translated g) (s0 :: sample)))) by (apply fold_max_ge, in_map, in_map; exact I).
      cbn [map] in Q. replace (Nat.max (fold_right Nat.max 0 (length (translated g s0) :: map (length (A:=list Z * C)) (map (translated g) sample))) (length (translated g s)))
        with (Nat.max (fold_right Nat.max 0 (length (translated g s0) :: map (length (A:=list Z * C)) (map (translated g) sample))) (estimated W)) by lia. reflexivity.
    + cbn [estimated]. enough (length (filter (fun x => length (translated g s) <? length (translated g x)) sample) < length (filter (fun x => estimated W <? length (translated g x)) sample)) by lia.
      apply filter_strict.
      * intros x Q. apply Nat.ltb_lt in Q. apply Nat.ltb_lt. lia.
      * exists s. split; [exact I|]. split; [now apply Nat.ltb_lt|apply Nat.ltb_irrefl].
  - assert (L : forall s, In s sample -> length (translated g s) <= estimated W).
    { intros s I. destruct (Nat.lt_ge_cases (estimated W) (length (translated g s))) as [Q|Q]; [|exact Q]. exfalso. apply X. apply Exists_exists. now exists s. }
    pose proof (loop_ok g (estimated W) sample [] [] eq_refl R L) as EQ. cbn [app length] in EQ. rewrite EQ. cbn [bind].
    unfold new_netket_find_conn. rewrite (collect_ok _ _ RI). cbn [bind].
    replace (numpy_max (map (@length _) (map (translated g) sample))) with (Ok (fold_right Nat.max 0 (map (@length _) (map (translated g) sample)))) by (destruct sample; [contradiction|reflexivity]).
    cbn [bind]. assert (Q : fold_right Nat.max 0 (map (@length _) (map (translated g) sample)) <= estimated W).
    { apply fold_max_le. intros x I. rewrite map_map in I. apply in_map_iff in I. destruct I as (s & <- & I). now apply L. }
    replace (Nat.max (fold_right Nat.max 0 (map (length (A:=list Z * C)) (map (translated g) sample))) (estimated W)) with (estimated W) by lia.
    assert (EC : map (fun k => map (fun column => nth k column []) (map (conns_of g (estimated W)) sample)) (range (estimated W)) =
                 map (fun k => map2 (fun z l => nth k (map fst l) z) (map (fun s : list Z => repeat 0%Z (length s)) sample) (map (translated g) sample)) (range (estimated W))).
    { apply map_ext_in. intros k K. apply in_seq in K. rewrite map_map, map2_diag2. apply map_ext. intros s. unfold conns_of.
      rewrite <- (map_length fst (translated g s)). apply nth_pad. lia. }
    assert (EM : map (fun k => map (fun column => nth k column C0) (map (mels_of g (estimated W)) sample)) (range (estimated W)) =
                 map (fun k => map (fun l => nth k (map snd l) C0) (map (translated g) sample)) (range (estimated W))).
    { apply map_ext_in. intros k K. apply in_seq in K. rewrite !map_map. apply map_ext. intros s. unfold mels_of.
      rewrite <- (map_length snd (translated g s)). apply nth_pad. lia. }
    rewrite EC, EM. destruct W; reflexivity.
Qed.

Lemma old_as_new g W sample : sample <> [] -> (forall s, In s sample -> reports g s 0) -> old_find_conn false g W sample = new_netket_find_conn (translated g) W sample.
Proof.
  intros NE R. apply fuel_ok; [exact NE|exact R|]. clear. apply Nat.lt_succ_r. induction sample as [|a t IH]; cbn [filter length]; [lia|]. destruct (estimated W <? length (translated g a)); cbn [length]; lia.
Qed.

Lemma column_of {A B} (f : nat -> A -> B) (a : A) d n : map (fun r => nth 0 r d) (map (fun k => map (fun c => f k c) [a]) (range n)) = map (fun k => f k a) (range n).
Proof. rewrite map_map. reflexivity. Qed.

(** One sample that fits and whose connection without changes is number [k]. *)
Lemma old_single g W s k : reports g s k -> length (translated g s) <= estimated W -> 0 < k ->
  exists conn mel use, old_find_conn false g W [s] = Ok (W, (conn, mel, use)) /\ length conn = estimated W /\ length mel = estimated W /\
    column 0 [] conn = upd (conns_of g (estimated W) s) 0 s /\ column 0 C0 mel = exchange_elements k (mels_of g (estimated W) s).
Proof.
  intros R L KP. destruct (report_parts g s k R) as (mels & idx & vals & E & LT & M1 & M2 & LC & K & F & LE & N).
  unfold old_find_conn. cbn [length old_find_conn_fuel map old_loop]. rewrite E. destruct (Nat.ltb_spec (estimated W) (length mels)); [lia|]. cbn [nth].
  pose proof (fill_ok s (repeat 0%Z (length s)) (combine idx vals) [] (estimated W) None F ltac:(lia)) as FO. cbn [app length] in FO. rewrite FO, LE. cbn [bind fst snd upd].
  replace (map (changed s) (combine idx vals) ++ repeat (repeat 0%Z (length s)) (estimated W - length (combine idx vals))) with (conns_of g (estimated W) s) by (unfold conns_of; rewrite M1, LT, LC; reflexivity).
  replace (mels ++ repeat C0 (estimated W - length mels)) with (mels_of g (estimated W) s) by (unfold mels_of; rewrite M2, LT; reflexivity).
  destruct k as [|k]; [lia|]. cbn [bind exchange_rows map].
  assert (LCO : length (conns_of g (estimated W) s) = estimated W) by (unfold conns_of; rewrite app_length, map_length, repeat_length; lia).
  assert (LME : length (mels_of g (estimated W) s) = estimated W) by (unfold mels_of; rewrite app_length, map_length, repeat_length; lia).
  assert (NK : nth (S k) (conns_of g (estimated W) s) [] = s).
  { unfold conns_of. rewrite app_nth1 by (rewrite map_length; lia). rewrite M1. exact N. }
  rewrite NK. rewrite (nth_upd_same (conns_of g (estimated W) s) 0 s []) by lia.
  assert (UU : upd (upd (conns_of g (estimated W) s) 0 s) (S k) s = upd (conns_of g (estimated W) s) 0 s).
  { apply (nth_ext _ _ [] []); [rewrite !upd_length; reflexivity|]. intros i I. rewrite !upd_length in I.
    destruct (Nat.eq_dec i (S k)) as [->|D]; [rewrite nth_upd_same by (rewrite upd_length; lia); rewrite nth_upd_other by lia; now rewrite NK|now rewrite nth_upd_other by lia]. }
  rewrite UU. eexists _, _, _. split; [reflexivity|]. split; [rewrite map_length; apply seq_length|]. split; [rewrite map_length; apply seq_length|].
  unfold column. rewrite !map_map. cbn [nth].
  split; rewrite map_nth_pad; rewrite ?upd_length, ?LCO; unfold exchange_elements; rewrite ?upd_length, ?LME, ?Nat.sub_diag; cbn [repeat]; rewrite ?app_nil_r; try lia; reflexivity.
Qed.
