(** Proofs about complex convolutions (C78). *)
From Coq Require Import Ascii String List ZArith Bool Arith Reals Lia Lra Psatz.
From Verif Require Import Base Cplx IsingModel OrderingModel OrderingSpec OrderingProofs ComplexConvModel ComplexConvSpec.
Import ListNotations.
Local Open Scope string_scope.
Local Open Scope list_scope.
Local Open Scope nat_scope.

(** * Sums *)
Lemma sum_over_raster sizes : forall f, sum_over sizes f = Csum f (raster sizes).
Proof.
  induction sizes as [|n r IH]; intros f; cbn [sum_over raster].
  - unfold Csum. cbn [fold_right]. ring.
  - rewrite Csum_flat_map. apply Csum_ext. intros i _. rewrite Csum_map. apply IH.
Qed.

Lemma sum_over_ext sizes f g : (forall l, In l (raster sizes) -> f l = g l) -> sum_over sizes f = sum_over sizes g.
Proof. intros H. rewrite !sum_over_raster. now apply Csum_ext. Qed.

(** * One axis *)
Lemma ceil_spec a s : 0 < s -> let q := (a + s - 1) / s in a <= q * s /\ (0 < a -> (q - 1) * s < a /\ 0 < q).
Proof.
  intros Hs q. subst q. pose proof (Nat.div_mod (a + s - 1) s ltac:(lia)) as D. pose proof (Nat.mod_upper_bound (a + s - 1) s ltac:(lia)) as M.
  set (q := (a + s - 1) / s) in *. set (m := (a + s - 1) mod s) in *. split; [nia|]. intros Ha.
  assert (0 < q) by (destruct q; [nia|lia]). split; [|assumption]. destruct q as [|q']; [lia|]. replace (S q' - 1) with q' by lia. nia.
Qed.

Lemma ceil_unique a s q : 0 < s -> 0 < q -> (q - 1) * s < a -> a <= q * s -> (a + s - 1) / s = q.
Proof.
  intros Hs Hq H1 H2. symmetry. apply (Nat.div_unique _ _ _ (a - 1 - (q - 1) * s)); [nia|].
  destruct q as [|q]; [lia|]. replace (S q - 1) with q in * by lia. nia.
Qed.

Lemma valid_axis n k s d : 0 < k -> 0 < s -> 0 < d -> (k - 1) * d < n -> axis false n k s d (valid_size n k s d) 0.
Proof.
  intros Hk Hs Hd Hn. unfold axis, valid_size, effective_size. rewrite Nat.add_sub.
  destruct (ceil_spec (n - (k - 1) * d) s Hs) as [H1 H2]. destruct H2 as [H2 H3]; [lia|].
  set (q := (n - (k - 1) * d + s - 1) / s) in *. split; [exact H3|]. split; [|reflexivity].
  destruct k as [|k]; [lia|]. destruct q as [|q]; [lia|]. replace (S k - 1) with k in * by lia. replace (S q - 1) with q in * by lia.
  replace (Z.of_nat (S k) - 1)%Z with (Z.of_nat k) by lia. replace (Z.of_nat (S q) - 1)%Z with (Z.of_nat q) by lia. nia.
Qed.

Lemma same_axis n k s d : 0 < n -> 0 < k -> 0 < s -> 0 < d ->
  let p := same_padding n k s d in
  axis true n k s d (valid_size (fst p + n + snd p) k s d) (fst p) /\ effective_size k d <= fst p + n + snd p.
Proof.
  intros Hn Hk Hs Hd p. subst p. unfold same_padding. cbn [fst snd].
  set (out := same_size n s). set (E := effective_size k d). set (total := (out - 1) * s + E - n).
  destruct (ceil_spec n s Hs) as [H1 H2]. destruct (H2 Hn) as [H3 H4]. fold (same_size n s) in *. fold out in H1, H3, H4.
  assert (HT : total / 2 <= total) by (apply Nat.div_le_upper_bound; lia).
  assert (HS : total / 2 + n + (total - total / 2) = n + total) by lia. rewrite HS.
  assert (HE : 1 <= E) by (unfold E, effective_size; apply Nat.le_add_l).
  assert (HP : out * s = (out - 1) * s + s) by (destruct out as [|o]; [lia|]; replace (Datatypes.S o - 1) with o by lia; lia).
  assert (ET : total = (out - 1) * s + E - n) by reflexivity. clearbody total.
  assert (EE : Z.of_nat E = ((Z.of_nat k - 1) * Z.of_nat d + 1)%Z).
  { unfold E, effective_size. rewrite Nat2Z.inj_add, Nat2Z.inj_mul, Nat2Z.inj_sub by lia. reflexivity. }
  assert (EO : Z.of_nat ((out - 1) * s) = ((Z.of_nat out - 1) * Z.of_nat s)%Z).
  { rewrite Nat2Z.inj_mul, Nat2Z.inj_sub by lia. reflexivity. }
  assert (EO' : Z.of_nat (out * s) = (Z.of_nat out * Z.of_nat s)%Z) by apply Nat2Z.inj_mul.
  assert (V : valid_size (n + total) k s d = out).
  { unfold valid_size. fold E. apply ceil_unique; [exact Hs|exact H4| |];
      set (P := (out - 1) * s) in *; clearbody P E; lia. }
  rewrite V. set (P := (out - 1) * s) in *. set (Q := out * s) in *. clearbody P Q E. split; [|lia].
  unfold axis. split; [exact H4|]. split; [lia|].
  rewrite Nat2Z.inj_div. f_equal. rewrite ET, Nat2Z.inj_sub_max. f_equal. lia.
Qed.

(** * All axes *)
Lemma fitting_lengths same ns ks ss ds : fitting same ns ks ss ds -> length ks = length ns /\ length ss = length ns /\ length ds = length ns.
Proof. induction 1; cbn; lia. Qed.
Lemma fitting_positive same ns ks ss ds : fitting same ns ks ss ds -> forallb (Nat.ltb 0) ss = true /\ forallb (Nat.ltb 0) ds = true.
Proof.
  induction 1 as [|n k s d ns ks ss ds Hn Hk Hs Hd HF H IH]; cbn [forallb]; [split; reflexivity|].
  rewrite (proj2 (Nat.ltb_lt 0 s) Hs), (proj2 (Nat.ltb_lt 0 d) Hd). exact IH.
Qed.
Lemma compatible_check ss ds : compatible ss ds -> existsb (Nat.ltb 1) ss && existsb (Nat.ltb 1) ds = false.
Proof.
  assert (G : forall l, Forall (eq 1) l -> existsb (Nat.ltb 1) l = false) by (induction 1; cbn [existsb]; subst; auto).
  intros [H|H]; rewrite (G _ H); [reflexivity|apply andb_false_r].
Qed.

Definition paddings (same : bool) (ns ks ss ds : list nat) : list (nat * nat) :=
  if same then map4 (fun n k s d => same_padding n k s d) ns ks ss ds else map (fun _ => (0, 0)) ns.

Lemma fitting_axes same ns ks ss ds : fitting same ns ks ss ds ->
  let padded := map2 (fun n (p : nat * nat) => fst p + n + snd p) ns (paddings same ns ks ss ds) in
  axes same ns ks ss ds (map4 (fun n k s d => valid_size n k s d) padded ks ss ds) (map fst (paddings same ns ks ss ds)) /\
  forallb (fun b => b) (map2 Nat.leb (map2 effective_size ks ds) padded) = true.
Proof.
  induction 1 as [|n k s d ns ks ss ds Hn Hk Hs Hd HF H [IH1 IH2]]; unfold paddings in *.
  - destruct same; split; constructor.
  - destruct same; cbn [map4 map map2 forallb].
    + destruct (same_axis n k s d Hn Hk Hs Hd) as [A B]. split; [constructor; assumption|].
      rewrite (proj2 (Nat.leb_le _ _) B). exact IH2.
    + destruct HF as [HF|HF]; [discriminate|]. cbn [fst snd]. replace (0 + n + 0) with n by lia. split; [constructor; [apply valid_axis; assumption|assumption]|].
      rewrite (proj2 (Nat.leb_le (effective_size k d) n)) by (unfold effective_size; lia). exact IH2.
Qed.

(** * Values *)
Lemma inside_zero ns : forall l, length l = length ns ->
  inside (map (fun _ => 0) ns) ns l = if within ns (map Z.of_nat l) then Some l else None.
Proof.
  induction ns as [|n ns IH]; intros [|i l] E; cbn [length] in E; try discriminate; [reflexivity|].
  cbn [map inside within]. rewrite (IH l) by lia. destruct (Nat.ltb_spec i (0 + n)) as [L|L]; cbn [Nat.leb andb].
  - rewrite (proj2 (Z.leb_le 0 (Z.of_nat i))), (proj2 (Z.ltb_lt (Z.of_nat i) (Z.of_nat n))) by lia. cbn [andb].
    destruct (within ns (map Z.of_nat l)); [|reflexivity]. cbn. now rewrite Nat.sub_0_r.
  - rewrite (proj2 (Z.ltb_ge (Z.of_nat i) (Z.of_nat n))) by lia. now rewrite andb_false_r.
Qed.

Lemma inside_read ss ds : forall before ns o k,
  length ss = length ns -> length ds = length ns -> length before = length ns -> length o = length ns -> length k = length ns ->
  inside before ns (map2 Nat.add (map2 Nat.mul o ss) (map2 Nat.mul k ds)) =
  (let p := read_position ss ds before o k in if within ns p then Some (map Z.to_nat p) else None).
Proof.
  revert ds. induction ss as [|s ss IH]; intros ds before ns o k E1 E2 E3 E4 E5.
  - destruct ns; [|discriminate]. destruct before; [|discriminate]. reflexivity.
  - destruct ns as [|n ns]; [discriminate|]. destruct ds as [|d ds]; [discriminate|]. destruct before as [|a before]; [discriminate|].
    destruct o as [|i o]; [discriminate|]. destruct k as [|j k]; [discriminate|]. cbn [length] in *.
    cbn [map2 inside read_position within map]. rewrite (IH ds before ns o k) by lia. cbv zeta.
    set (z := (Z.of_nat i * Z.of_nat s + Z.of_nat j * Z.of_nat d - Z.of_nat a)%Z).
    assert (EZ : (Z.of_nat (i * s + j * d) - Z.of_nat a)%Z = z) by (unfold z; lia).
    destruct (Nat.leb_spec a (i * s + j * d)) as [L|L].
    + rewrite (proj2 (Z.leb_le 0 z)) by lia. cbn [andb]. destruct (Nat.ltb_spec (i * s + j * d) (a + n)) as [U|U].
      * rewrite (proj2 (Z.ltb_lt z (Z.of_nat n))) by lia. cbn [andb]. destruct (within ns (read_position ss ds before o k)); [|reflexivity].
        cbn [option_map]. f_equal. f_equal. rewrite <- EZ. lia.
      * rewrite (proj2 (Z.ltb_ge z (Z.of_nat n))) by lia. reflexivity.
    + rewrite (proj2 (Z.leb_gt 0 z)) by lia. reflexivity.
Qed.

Lemma in_shape_length shape : forall l, in_shape shape l -> length l = length shape.
Proof. intros l H. apply in_raster in H. revert l H. induction shape as [|n r IH]; intros l H; cbn [raster] in H.
  - destruct H as [<-|[]]. reflexivity.
  - apply in_flat_map in H. destruct H as [i [_ H]]. apply in_map_iff in H. destruct H as [l' [<- H]]. cbn. now rewrite (IH l').
Qed.

(** The value computed by one real convolution. *)
Definition real_value (x : image R) (w : filter R) ss ds before b o f : R :=
  Rsum (fun k => Rsum (fun c =>
    ((let p := read_position ss ds before o k in if within (sizes x) p then pixel x b (map Z.to_nat p) c else 0) * tap w k c f)%R)
    (range (channels x))) (raster (ksizes w)).

Lemma read_valid ns ks ss ds outs before : axes false ns ks ss ds outs before -> forall o k, Forall2 lt o outs -> in_shape ks k ->
  let p := read_position ss ds before o k in
  within ns p = true /\ map Z.to_nat p = map2 Nat.add (map2 Nat.mul o ss) (map2 Nat.mul k ds).
Proof.
  induction 1 as [|n k s d out a ns ks ss ds outs before HA H IH]; intros o kk Ho Hk; cbv zeta.
  - inversion Ho; subst. split; reflexivity.
  - inversion Ho as [|i ? o' ? Hi Ho']; subst. inversion Hk as [|j ? kk' ? Hj Hk']; subst. destruct HA as [H0 [HA ->]].
    destruct (IH o' kk' Ho' Hk') as [E1 E2]. cbn [read_position within map2 map]. rewrite E1, E2.
    assert (B : (0 <= Z.of_nat i * Z.of_nat s + Z.of_nat j * Z.of_nat d - Z.of_nat 0 < Z.of_nat n)%Z).
    { split; [nia|]. assert (Z.of_nat i <= Z.of_nat out - 1)%Z by lia. assert (Z.of_nat j <= Z.of_nat k - 1)%Z by lia. nia. }
    rewrite (proj2 (Z.leb_le _ _) (proj1 B)), (proj2 (Z.ltb_lt _ _) (proj2 B)). split; [reflexivity|]. f_equal. lia.
Qed.

Lemma map4_length {A} (f : nat -> nat -> nat -> nat -> A) : forall a b c d, length b = length a -> length c = length a -> length d = length a ->
  length (map4 f a b c d) = length a.
Proof.
  induction a as [|x a IH]; intros [|y b] [|z c] [|w d] E1 E2 E3; cbn in *; try discriminate; [reflexivity|]. now rewrite IH by lia.
Qed.

Lemma forall2_lt_length o l : Forall2 lt o l -> length o = length l.
Proof. induction 1; cbn; lia. Qed.
Lemma axes_lengths same ns ks ss ds outs before : axes same ns ks ss ds outs before -> length outs = length ns /\ length before = length ns.
Proof. induction 1; cbn; lia. Qed.

Lemma map2_zero ns : map2 (fun n (p : nat * nat) => fst p + n + snd p) ns (map (fun _ => (0, 0)) ns) = ns.
Proof. induction ns as [|n ns IH]; cbn [map map2]; [reflexivity|]. rewrite IH. cbn [fst snd]. f_equal. lia. Qed.

Definition out_sizes (same : bool) (ns ks ss ds : list nat) : list nat :=
  map4 (fun n k s d => valid_size n k s d) (map2 (fun n (p : nat * nat) => fst p + n + snd p) ns (paddings same ns ks ss ds)) ks ss ds.
Definition befores (same : bool) (ns ks ss ds : list nat) : list nat := map fst (paddings same ns ks ss ds).

Lemma convolution_ok together same ss ds x w :
  fitting same (sizes x) (ksizes w) ss ds -> inputs w = channels x -> (together = true \/ compatible ss ds) ->
  exists r, convolution together same ss ds x w = Ok r /\ batch r = batch x /\ channels r = outputs w /\
    sizes r = out_sizes same (sizes x) (ksizes w) ss ds /\
    forall b o f, Forall2 lt o (sizes r) -> pixel r b o f = real_value x w ss ds (befores same (sizes x) (ksizes w) ss ds) b o f.
Proof.
  intros F EI EC. destruct (fitting_lengths _ _ _ _ _ F) as [L1 [L2 L3]]. destruct (fitting_positive _ _ _ _ _ F) as [P1 P2].
  destruct (fitting_axes _ _ _ _ _ F) as [A B]. cbv zeta in A, B. unfold convolution. rewrite L1, L2, L3, !Nat.eqb_refl, EI, Nat.eqb_refl, P1, P2. cbn [andb negb].
  replace (negb together && existsb (Nat.ltb 1) ss && existsb (Nat.ltb 1) ds) with false
    by (destruct EC as [->|EC]; [reflexivity|rewrite <- andb_assoc, (compatible_check _ _ EC), andb_false_r; reflexivity]).
  unfold out_sizes, befores. fold (out_sizes same (sizes x) (ksizes w) ss ds) in *.
  destruct (axes_lengths _ _ _ _ _ _ _ A) as [LA LB].
  destruct same; cbv zeta; unfold paddings in *.
  - cbn [zero_pad sizes]. rewrite B. cbn [negb]. eexists. split; [reflexivity|]. cbn [batch channels sizes pixel]. repeat (split; [reflexivity|]).
    intros b o f Ho. unfold real_value. apply Rsum_ext. intros k Hk. apply Rsum_ext. intros c _. f_equal.
    apply in_raster, in_shape_length in Hk. apply forall2_lt_length in Ho.
    unfold out_sizes, paddings in LA. cbn [zero_pad pixel]. rewrite inside_read by lia. cbv zeta. now destruct (within _ _).
  - assert (EO : map4 (fun n k s d => valid_size n k s d) (sizes x) (ksizes w) ss ds = out_sizes false (sizes x) (ksizes w) ss ds)
      by (unfold out_sizes, paddings; now rewrite map2_zero).
    rewrite map2_zero in *. rewrite B. cbn [negb]. eexists. split; [reflexivity|]. cbn [batch channels sizes pixel]. rewrite EO. repeat (split; [reflexivity|]).
    intros b o f Ho. unfold real_value. apply Rsum_ext. intros k Hk. apply Rsum_ext. intros c _. f_equal.
    apply in_raster in Hk. destruct (read_valid _ _ _ _ _ _ A o k Ho Hk) as [E1 E2]. cbv zeta in E1, E2. cbv zeta. now rewrite E1, E2.
Qed.

(** * Complex convolutions *)
Lemma complex_ok together same ss ds x w :
  fitting same (sizes x) (ksizes w) ss ds -> inputs w = channels x -> (together = true \/ compatible ss ds) ->
  exists r, keras_conv_to_complex_conv (convolution together same ss ds) x w = Ok r /\ is_convolution same x w ss ds r /\
    sizes r = out_sizes same (sizes x) (ksizes w) ss ds.
Proof.
  intros F EI EC. destruct (fitting_axes _ _ _ _ _ F) as [A _]. cbv zeta in A.
  assert (G : forall g h, exists r, convolution together same ss ds (map_image g x) (map_filter h w) = Ok r /\ batch r = batch x /\ channels r = outputs w /\
    sizes r = out_sizes same (sizes x) (ksizes w) ss ds /\
    forall b o f, Forall2 lt o (sizes r) -> pixel r b o f = real_value (map_image g x) (map_filter h w) ss ds (befores same (sizes x) (ksizes w) ss ds) b o f)
    by (intros g h; exact (convolution_ok together same ss ds (map_image g x) (map_filter h w) F EI EC)).
  destruct (G Re Re) as [ac [E1 [B1 [C1 [S1 V1]]]]]. destruct (G Im Im) as [bd [E2 [B2 [C2 [S2 V2]]]]].
  destruct (G Re Im) as [ad [E3 [B3 [C3 [S3 V3]]]]]. destruct (G Im Re) as [bc [E4 [B4 [C4 [S4 V4]]]]].
  unfold keras_conv_to_complex_conv. rewrite E1, E2, E3, E4. cbn [bind]. eexists. split; [reflexivity|]. split; [|cbn [zip_image sizes]; exact S1].
  exists (befores same (sizes x) (ksizes w) ss ds). cbn [zip_image batch sizes channels pixel]. rewrite S1. split; [exact A|]. split; [exact B1|]. split; [exact C1|].
  intros b o f Ho. rewrite V1, V2, V3, V4 by congruence. unfold real_value, convolved. rewrite sum_over_raster. cbn [map_image map_filter sizes channels ksizes tap pixel].
  apply C_eq; unfold Re at 1, Im at 1; cbn [fst snd].
  - rewrite Re_Csum, <- Rsum_minus. apply Rsum_ext. intros k _. rewrite Re_Csum, <- Rsum_minus. rewrite EI. apply Rsum_ext. intros c _.
    unfold value_at. cbv zeta. destruct (within _ _); cbn; unfold Re, Im; cbn; ring.
  - rewrite Im_Csum, <- Rsum_plus. apply Rsum_ext. intros k _. rewrite Im_Csum, <- Rsum_plus. rewrite EI. apply Rsum_ext. intros c _.
    unfold value_at. cbv zeta. destruct (within _ _); cbn; unfold Re, Im; cbn; ring.
Qed.

(** * Arguments *)
Lemma denotes_checked t l : Forall2 denotes t l -> check_elements t = Ok tt.
Proof. induction 1 as [|v z t l H F IH]; cbn [check_elements]; [reflexivity|]. destruct H; exact IH. Qed.

Lemma denotes_repeat v z n : denotes v z -> Forall2 denotes (repeat v n) (repeat z n).
Proof. intros H. induction n; cbn; constructor; auto. Qed.

Lemma tuple_ok n a l : names n a l -> exists t, normalize_tuple a n = Ok t /\ Forall2 denotes t l.
Proof.
  intros [z|b|t l' F E]; cbn [normalize_tuple tuple_call].
  - eexists. split; [reflexivity|]. apply denotes_repeat. constructor.
  - eexists. split; [reflexivity|]. apply denotes_repeat. constructor.
  - rewrite E, Nat.eqb_refl, (denotes_checked _ _ F). exists t. split; [reflexivity|exact F].
Qed.

Lemma check_elements_ok l : check_elements l = Ok tt <-> Forall (fun v => int_call v = Ok tt) l.
Proof.
  induction l as [|v l IH]; cbn [check_elements]; [split; auto|]. destruct (int_call v) as [[]|e] eqn:E.
  - rewrite IH. split; [intros H; now constructor|intros H; now inversion H].
  - split; [destruct e; discriminate|intros H; inversion H; congruence].
Qed.

Lemma check_elements_err l e : check_elements l = Err e ->
  exists l1 v l2, l = l1 ++ v :: l2 /\ int_call v = Err e /\ Forall (fun v => int_call v = Ok tt) l1.
Proof.
  induction l as [|v l IH]; cbn [check_elements]; [discriminate|]. destruct (int_call v) as [[]|e'] eqn:E.
  - intros H. destruct (IH H) as [l1 [v' [l2 [-> [H1 H2]]]]]. exists (v :: l1), v', l2. split; [reflexivity|]. split; [exact H1|]. now constructor.
  - intros H. exists [], v, l. split; [reflexivity|]. split; [|constructor]. destruct e'; congruence.
Qed.

Lemma tuple_result a n t : normalize_tuple a n = Ok t -> length t = n /\ Forall (fun v => int_call v = Ok tt) t.
Proof.
  assert (G : forall l, (if length l =? n then do _ <- check_elements l ; Ok l else Err ValueError) = Ok t -> length t = n /\ Forall (fun v => int_call v = Ok tt) t).
  { intros l. destruct (Nat.eqb_spec (length l) n) as [E|E]; [|discriminate]. destruct (check_elements l) as [[]|e] eqn:EC; cbn [bind]; [|discriminate].
    intros [= <-]. split; [exact E|]. now apply check_elements_ok. }
  assert (RP : forall v, int_call v = Ok tt -> Ok (repeat v n) = Ok t -> length t = n /\ Forall (fun v => int_call v = Ok tt) t).
  { intros v Hv [= <-]. split; [apply repeat_length|]. apply Forall_forall. intros x Hx. apply repeat_spec in Hx. now subst. }
  destruct a as [v|l]; [destruct v|]; cbn [normalize_tuple tuple_call]; try discriminate; try (apply RP; reflexivity); apply G.
Qed.

Lemma int_call_err v e : int_call v = Err e -> e = ValueError \/ (e = TypeError /\ v = Other).
Proof. destruct v; cbn; try discriminate; [|destruct (is_integer_literal s)|]; intros [= <-]; auto. Qed.

Lemma tuple_error a n e : normalize_tuple a n = Err e ->
  e = ValueError \/ (e = TypeError /\ exists l, a = Iterable l /\ length l = n /\ In Other l).
Proof.
  assert (G : forall l, (if length l =? n then do _ <- check_elements l ; Ok l else Err ValueError) = Err e ->
    e = ValueError \/ (e = TypeError /\ length l = n /\ In Other l)).
  { intros l. destruct (Nat.eqb_spec (length l) n) as [E|E]; [|intros [= <-]; auto]. destruct (check_elements l) as [[]|e'] eqn:EC; cbn [bind]; [discriminate|].
    intros [= <-]. destruct (check_elements_err _ _ EC) as [l1 [v [l2 [-> [H _]]]]]. destruct (int_call_err _ _ H) as [->|[-> ->]]; [auto|]. right.
    split; [reflexivity|]. split; [exact E|]. apply in_elt. }
  destruct a as [v|l]; [destruct v|]; cbn [normalize_tuple tuple_call]; try discriminate; try (intros [= <-]; left; reflexivity).
  - intros H. destruct (G _ H) as [->|[-> [_ HO]]]; [auto|]. apply in_map_iff in HO. destruct HO as [c [HO _]]. discriminate.
  - intros H. destruct (G _ H) as [->|[-> [E HO]]]; [auto|]. right. split; [reflexivity|]. exists l. auto.
Qed.

Lemma padding_ok s : normalize_padding (Single (Str s)) =
  if String.eqb (lower s) "valid" then Ok "valid" else if String.eqb (lower s) "same" then Ok "same" else Err ValueError.
Proof.
  cbn [normalize_padding existsb]. destruct (String.eqb_spec (lower s) "valid") as [->|N1]; [reflexivity|].
  destruct (String.eqb_spec (lower s) "same") as [->|N2]; reflexivity.
Qed.

(** * Strings *)
Lemma ascii_all (P : ascii -> Prop) : (forall n, n < 256 -> P (ascii_of_nat n)) -> forall c, P c.
Proof. intros H c. rewrite <- (ascii_nat_embedding c). apply H. apply nat_ascii_bounded. Qed.

Definition same_letterb (c d : ascii) : bool :=
  Ascii.eqb c d || existsb (fun p => Ascii.eqb (fst p) c && Ascii.eqb (snd p) d) (combine upper_letters lower_letters).
Lemma same_letterb_spec c d : same_letterb c d = true <-> same_letter c d.
Proof.
  unfold same_letterb, same_letter. rewrite orb_true_iff, Ascii.eqb_eq, existsb_exists. split; (intros [H|H]; [auto|right]).
  - destruct H as [[x y] [H1 H2]]. cbn [fst snd] in H2. apply andb_true_iff in H2. rewrite !Ascii.eqb_eq in H2. destruct H2 as [<- <-]. exact H1.
  - exists (c, d). split; [exact H|]. cbn [fst snd]. now rewrite !Ascii.eqb_refl.
Qed.

Lemma lower_letter_spec c d : In d lower_letters -> (lower_ascii c = d <-> same_letter c d).
Proof.
  intros Hd. rewrite <- same_letterb_spec, <- Ascii.eqb_eq.
  assert (G : forallb (fun d => forallb (fun n => Bool.eqb (Ascii.eqb (lower_ascii (ascii_of_nat n)) d) (same_letterb (ascii_of_nat n) d)) (range 256)) lower_letters = true)
    by (vm_compute; reflexivity).
  rewrite forallb_forall in G. specialize (G d Hd). rewrite forallb_forall in G. specialize (G (nat_of_ascii c)).
  rewrite ascii_nat_embedding in G. rewrite in_range in G. specialize (G (nat_ascii_bounded c)). apply eqb_prop in G. now rewrite G.
Qed.

Lemma lower_case t : Forall (fun c => In c lower_letters) (list_ascii_of_string t) -> forall s, lower s = t <-> up_to_case s t.
Proof.
  unfold up_to_case. induction t as [|d t IH]; intros F s; cbn [list_ascii_of_string] in *.
  - destruct s as [|c s]; cbn [lower list_ascii_of_string]; split; intros H; try discriminate; auto; inversion H.
  - inversion F as [|? ? Hd F']; subst. destruct s as [|c s]; cbn [lower list_ascii_of_string]; split; intros H; try discriminate; try (now inversion H).
    + injection H as H1 H2. constructor; [now apply lower_letter_spec|]. now apply IH.
    + inversion H as [|? ? ? ? H1 H2]; subst. f_equal; [now apply lower_letter_spec|]. now apply IH.
Qed.

Lemma is_space_spec c : is_space c = true <-> In c white_space.
Proof.
  revert c. apply ascii_all. intros n Hn.
  assert (G : forallb (fun n => Bool.eqb (is_space (ascii_of_nat n)) (existsb (Ascii.eqb (ascii_of_nat n)) white_space)) (range 256) = true) by (vm_compute; reflexivity).
  rewrite forallb_forall in G. specialize (G n). rewrite in_range in G. specialize (G Hn). apply eqb_prop in G. rewrite G, existsb_exists.
  split; [intros [x [H1 H2]]; apply Ascii.eqb_eq in H2; now subst|intros H; exists (ascii_of_nat n); split; [exact H|apply Ascii.eqb_refl]].
Qed.

Lemma is_digit_spec c : is_digit c = true <-> In c decimal_digits.
Proof.
  revert c. apply ascii_all. intros n Hn.
  assert (G : forallb (fun n => Bool.eqb (is_digit (ascii_of_nat n)) (existsb (Ascii.eqb (ascii_of_nat n)) decimal_digits)) (range 256) = true) by (vm_compute; reflexivity).
  rewrite forallb_forall in G. specialize (G n). rewrite in_range in G. specialize (G Hn). apply eqb_prop in G. rewrite G, existsb_exists.
  split; [intros [x [H1 H2]]; apply Ascii.eqb_eq in H2; now subst|intros H; exists (ascii_of_nat n); split; [exact H|apply Ascii.eqb_refl]].
Qed.

Lemma skip_spaces_spec l : exists ws, l = ws ++ skip_spaces l /\ Forall (fun c => In c white_space) ws /\
  match skip_spaces l with [] => True | c :: _ => is_space c = false end.
Proof.
  induction l as [|c l [ws [E [F H]]]]; cbn [skip_spaces]; [exists []; repeat split; constructor|].
  destruct (is_space c) eqn:S.
  - exists (c :: ws). cbn [app]. split; [now f_equal|]. split; [constructor; [now apply is_space_spec|exact F]|exact H].
  - exists []. split; [reflexivity|]. split; [constructor|exact S].
Qed.

Lemma skip_spaces_app ws l : Forall (fun c => In c white_space) ws -> match l with [] => True | c :: _ => is_space c = false end -> skip_spaces (ws ++ l) = l.
Proof.
  intros F H. induction F as [|c ws Hc F IH]; cbn [app].
  - destruct l as [|c l]; [reflexivity|]. cbn [skip_spaces]. now rewrite H.
  - cbn [skip_spaces]. apply is_space_spec in Hc. now rewrite Hc.
Qed.

Lemma strip_middle ws1 m ws2 : Forall (fun c => In c white_space) ws1 -> Forall (fun c => In c white_space) ws2 ->
  match m with [] => False | c :: _ => is_space c = false end -> match rev m with [] => False | c :: _ => is_space c = false end ->
  strip (ws1 ++ m ++ ws2) = m.
Proof.
  intros F1 F2 H1 H2. unfold strip. rewrite skip_spaces_app; [|exact F1|destruct m; [contradiction|exact H1]].
  rewrite rev_app_distr, skip_spaces_app; [apply rev_involutive|now apply Forall_rev|]. destruct (rev m); [contradiction|exact H2].
Qed.

Lemma strip_decompose l : exists ws1 ws2, l = ws1 ++ strip l ++ ws2 /\ Forall (fun c => In c white_space) ws1 /\ Forall (fun c => In c white_space) ws2.
Proof.
  destruct (skip_spaces_spec l) as [ws1 [E1 [F1 _]]]. destruct (skip_spaces_spec (rev (skip_spaces l))) as [ws2 [E2 [F2 _]]].
  exists ws1, (rev ws2). unfold strip. split; [|split; [exact F1|now apply Forall_rev]].
  rewrite <- rev_app_distr, <- E2, rev_involutive. exact E1.
Qed.

Definition digit_groups (gs : list (list ascii)) : Prop := gs <> [] /\ Forall (fun g => g <> [] /\ Forall (fun c => In c decimal_digits) g) gs.

Lemma digits_complete gs : digit_groups gs -> digits false (join gs) = true.
Proof.
  intros [N F].
  assert (R : forall g l b, Forall (fun c => In c decimal_digits) g -> digits b (g ++ l) = digits (match g with [] => b | _ => true end) l).
  { intros g l. induction g as [|c g IH]; intros b FG; [reflexivity|]. inversion FG as [|? ? Hc FG']; subst. cbn [app digits]. apply is_digit_spec in Hc. rewrite Hc, IH by exact FG'.
    destruct g; reflexivity. }
  induction F as [|g gs [Ng Fg] F IH]; [contradiction|]. destruct gs as [|g' gs]; cbn [join].
  - rewrite <- (app_nil_r g). rewrite R by exact Fg. now destruct g.
  - rewrite R by exact Fg. destruct g as [|c g]; [contradiction|]. cbn [digits is_digit]. change (is_digit "_") with false. cbn [andb]. rewrite Ascii.eqb_refl.
    apply IH. discriminate.
Qed.

Lemma digits_sound l : forall b, digits b l = true ->
  if b then exists g gs, (l = g ++ match gs with [] => [] | _ => "_"%char :: join gs end) /\ Forall (fun c => In c decimal_digits) g /\
                         Forall (fun g => g <> [] /\ Forall (fun c => In c decimal_digits) g) gs
  else exists gs, l = join gs /\ digit_groups gs.
Proof.
  induction l as [|c l IH]; intros b H; cbn [digits] in H.
  - subst b. exists [], []. repeat split; constructor.
  - destruct (is_digit c) eqn:D.
    + destruct (IH true H) as [g [gs [E [F1 F2]]]]. apply is_digit_spec in D. destruct b.
      * exists (c :: g), gs. cbn [app]. split; [now f_equal|]. split; [now constructor|exact F2].
      * exists ((c :: g) :: gs). split.
        -- rewrite E. destruct gs as [|g' gs]; cbn [join]; [now rewrite app_nil_r|reflexivity].
        -- split; [discriminate|]. constructor; [|exact F2]. split; [discriminate|now constructor].
    + destruct b; cbn [andb] in H; [|discriminate]. destruct (Ascii.eqb_spec c "_") as [->|]; [|discriminate].
      destruct (IH false H) as [gs [E [N F]]]. exists [], gs. cbn [app]. split; [|split; [constructor|exact F]]. destruct gs; [contradiction|]. now rewrite E.
Qed.

Lemma digit_not_space c : In c decimal_digits -> is_space c = false.
Proof.
  intros H. assert (G : forallb (fun c => negb (is_space c)) decimal_digits = true) by (vm_compute; reflexivity).
  rewrite forallb_forall in G. specialize (G c H). now apply negb_true_iff.
Qed.

Lemma digit_not_sign c : In c decimal_digits -> Ascii.eqb c "+" || Ascii.eqb c "-" = false.
Proof.
  intros H. assert (G : forallb (fun c => negb (Ascii.eqb c "+" || Ascii.eqb c "-")) decimal_digits = true) by (vm_compute; reflexivity).
  rewrite forallb_forall in G. specialize (G c H). now apply negb_true_iff.
Qed.

Lemma join_head gs : digit_groups gs -> exists c r, join gs = c :: r /\ In c decimal_digits.
Proof.
  intros [N F]. destruct gs as [|g gs]; [contradiction|]. inversion F as [|? ? [Ng Fg] F']; subst. destruct g as [|c g]; [contradiction|]. inversion Fg; subst.
  destruct gs as [|g' gs]; cbn [join]; [exists c, g; auto|]. exists c, (g ++ "_"%char :: join (g' :: gs)). auto.
Qed.

Lemma join_last gs : digit_groups gs -> exists c r, rev (join gs) = c :: r /\ In c decimal_digits.
Proof.
  intros [N F]. induction F as [|g gs [Ng Fg] F IH]; [contradiction|]. destruct gs as [|g' gs]; cbn [join].
  - destruct (rev g) as [|c r] eqn:E; [apply (f_equal (@rev ascii)) in E; rewrite rev_involutive in E; contradiction|]. exists c, r. split; [reflexivity|].
    apply Forall_rev in Fg. rewrite E in Fg. now inversion Fg.
  - destruct IH as [c [r [E Hc]]]; [discriminate|]. change (match gs with [] => g' | _ :: _ => g' ++ "_"%char :: join gs end) with (join (g' :: gs)).
    rewrite rev_app_distr. change (rev ("_"%char :: join (g' :: gs))) with (rev (join (g' :: gs)) ++ ["_"%char]).
    rewrite E. exists c. eexists. split; [reflexivity|exact Hc].
Qed.

Lemma integer_literal_spec s : is_integer_literal s = true <-> integer_text s.
Proof.
  unfold is_integer_literal, integer_text. split.
  - destruct (strip_decompose (list_ascii_of_string s)) as [ws1 [ws2 [E [F1 F2]]]]. destruct (strip (list_ascii_of_string s)) as [|c m] eqn:ES; [discriminate|].
    destruct (Ascii.eqb c "+" || Ascii.eqb c "-") eqn:SG; intros H; apply digits_sound in H; destruct H as [gs [EG HG]].
    + exists ws1, [c], gs, ws2. rewrite E, EG. split; [reflexivity|]. split; [exact F1|]. split; [exact F2|]. split; [|exact HG].
      apply orb_true_iff in SG. rewrite !Ascii.eqb_eq in SG. destruct SG as [->| ->]; cbn; auto.
    + exists ws1, [], gs, ws2. rewrite E, EG. split; [reflexivity|]. split; [exact F1|]. split; [exact F2|]. split; [now left|exact HG].
  - intros [ws1 [sg [gs [ws2 [E [F1 [F2 [HS [N F]]]]]]]]]. assert (HG : digit_groups gs) by (split; assumption).
    destruct (join_head gs HG) as [c [r [EJ Hc]]]. destruct (join_last gs HG) as [c' [r' [EL Hc']]]. rewrite E, (app_assoc sg).
    rewrite strip_middle; [|exact F1|exact F2| |].
    + destruct HS as [<-|[<-|[<-|[]]]]; cbn [app].
      * pose proof (digits_complete gs HG) as D. rewrite EJ in *. now rewrite (digit_not_sign c Hc).
      * cbn. now apply digits_complete.
      * cbn. now apply digits_complete.
    + destruct HS as [<-|[<-|[<-|[]]]]; cbn [app]; [rewrite EJ; now apply digit_not_space|reflexivity|reflexivity].
    + rewrite rev_app_distr, EL. cbn [app]. now apply digit_not_space.
Qed.

(** * Layers *)
Lemma as_sizes_ints t (l : list nat) : Forall2 denotes t (map Z.of_nat l) -> as_sizes t = Ok l.
Proof.
  unfold as_sizes. intros F. remember (map Z.of_nat l) as zl eqn:E. revert l E. induction F as [|v z t zl H F IH]; intros [|n l] E; cbn [map] in E; try discriminate; [reflexivity|].
  injection E as -> ->. cbn [mapM]. rewrite (IH l eq_refl).
  assert (G : as_size v = Ok n).
  { inversion H as [z' E1 E2|b E1 E2|z' E1 E2]; subst; cbn [as_size].
    - destruct (Z.ltb_spec (Z.of_nat n) 0); [lia|]. now rewrite Nat2Z.id.
    - destruct b; cbn in E2; f_equal; lia.
    - destruct (Z.ltb_spec (Z.of_nat n) 0); [lia|]. now rewrite Nat2Z.id. }
  rewrite G. reflexivity.
Qed.

Lemma as_sizes_negative t l : Forall2 denotes t l -> Exists (fun z => (z < 0)%Z) l -> as_sizes t = Err ValueError.
Proof.
  unfold as_sizes. induction 1 as [|v z t l H F IH]; intros X; [inversion X|]. cbn [mapM].
  assert (G : as_size v = if (z <? 0)%Z then Err ValueError else Ok (Z.to_nat z)) by (destruct H as [|b|]; [reflexivity|destruct b; reflexivity|reflexivity]).
  rewrite G. destruct (Z.ltb_spec z 0) as [L|L]; cbn [bind]; [reflexivity|]. inversion X as [? ? X1|? ? X1]; subst; [lia|]. now rewrite (IH X1).
Qed.

Lemma layer_ok rank f ka sa pa da bias act ks ss ds p same :
  names rank ka ks -> names rank sa ss -> names rank da ds ->
  pa = Single (Str p) -> lower p = (if same : bool then "same" else "valid") ->
  exists L, complex_conv_init rank f ka sa pa da bias act = Ok L /\
    Forall2 denotes (kernel_size L) ks /\ Forall2 denotes (strides L) ss /\ Forall2 denotes (dilation_rate L) ds /\
    String.eqb (padding L) "same" = same /\ String.eqb (padding L) "valid" = negb same /\ filters L = f /\ use_bias L = bias /\ activation L = act.
Proof.
  intros K S D -> E. unfold complex_conv_init. destruct (tuple_ok _ _ _ K) as [tk [-> HK]]. destruct (tuple_ok _ _ _ S) as [ts [-> HS]].
  destruct (tuple_ok _ _ _ D) as [td [-> HD]]. rewrite padding_ok, E. cbn [bind].
  destruct same; (eexists; split; [reflexivity|]); cbn; repeat (split; [first [assumption|reflexivity]|]); reflexivity.
Qed.

Lemma same_convolution same x w ss ds r :
  is_convolution same x w ss ds r -> length (sizes r) = length (sizes x).
Proof. intros [before [A _]]. now destruct (axes_lengths _ _ _ _ _ _ _ A). Qed.

Lemma call_ok L ks ss ds kernel bias x same :
  Forall2 denotes (kernel_size L) (map Z.of_nat ks) -> Forall2 denotes (strides L) (map Z.of_nat ss) -> Forall2 denotes (dilation_rate L) (map Z.of_nat ds) ->
  String.eqb (padding L) "same" = same -> fitting same (sizes x) ks ss ds -> compatible ss ds ->
  exists r c, call L kernel bias x = Ok r /\
    is_convolution same x {| ksizes := ks; inputs := channels x; outputs := filters L; tap := kernel |} ss ds c /\
    batch r = batch x /\ sizes r = sizes c /\ channels r = filters L /\
    forall b o f, Forall2 lt o (sizes r) ->
      pixel r b o f = match activation L with Some g => g | None => fun z => z end (if use_bias L then (pixel c b o f + bias f)%C else pixel c b o f).
Proof.
  intros EK ES ED EP F EC. unfold call, build. rewrite (as_sizes_ints _ _ EK), (as_sizes_ints _ _ ES), (as_sizes_ints _ _ ED). cbn [bind]. rewrite EP.
  destruct (complex_ok false same ss ds x {| ksizes := ks; inputs := channels x; outputs := filters L; tap := kernel |} F eq_refl (or_intror EC))
    as [c [E [HC _]]].
  rewrite E. cbn [bind snd]. pose proof HC as [before [_ [HB [HCh _]]]]. cbn [outputs] in HCh.
  destruct (use_bias L), (activation L) as [g|]; (eexists; exists c; split; [reflexivity|]; split; [exact HC|]); cbn [batch sizes channels pixel map_image];
    repeat (split; [first [exact HB|exact HCh|reflexivity]|]); intros; reflexivity.
Qed.

(** * Failing layers *)
Lemma strided_and_dilated_err same ss ds x w : length (ksizes w) = length (sizes x) -> length ss = length (sizes x) -> length ds = length (sizes x) ->
  inputs w = channels x -> Exists (lt 1) ss -> Exists (lt 1) ds -> Forall (lt 0) ss -> Forall (lt 0) ds ->
  convolution false same ss ds x w = Err ValueError.
Proof.
  intros E1 E2 E3 EI S D PS PD. unfold convolution. rewrite E1, E2, E3, EI, !Nat.eqb_refl. cbn [andb negb].
  assert (G : forall l, Exists (lt 1) l -> existsb (Nat.ltb 1) l = true).
  { intros l H. apply existsb_exists. apply Exists_exists in H. destruct H as [n [H1 H2]]. exists n. split; [exact H1|]. now apply Nat.ltb_lt. }
  assert (P : forall l, Forall (lt 0) l -> forallb (Nat.ltb 0) l = true).
  { intros l H. apply forallb_forall. intros n Hn. apply Nat.ltb_lt. now apply (proj1 (Forall_forall _ _) H). }
  now rewrite (P _ PS), (P _ PD), (G _ S), (G _ D).
Qed.

(** * conv2d_complex *)
Lemma Csum_range_mult (h : nat -> C) n m : Csum h (range (n * m)) = Csum (fun i => Csum (fun j => h (i * m + j)) (range m)) (range n).
Proof.
  induction n as [|n IH]; [reflexivity|]. replace (Datatypes.S n * m) with (n * m + m) by lia. unfold range in *. rewrite seq_app, Csum_app, IH.
  rewrite seq_S, Csum_app. cbn [plus]. f_equal. unfold Csum at 2. cbn [fold_right]. rewrite <- (Nat.add_0_r (n * m)) at 1.
  rewrite <- seq_map_add, Csum_map. ring.
Qed.

Lemma split3_flat n2 n3 h w c : w < n2 -> c < n3 -> split3 n2 n3 ((h * n2 + w) * n3 + c) = (h, w, c).
Proof.
  intros Hw Hc. unfold split3.
  assert (E1 : ((h * n2 + w) * n3 + c) / n3 = h * n2 + w) by (symmetry; apply (Nat.div_unique _ _ _ c); lia).
  rewrite E1. rewrite (Nat.mul_comm n2 n3), <- Nat.div_div by lia. rewrite E1.
  assert (E2 : (h * n2 + w) / n2 = h) by (symmetry; apply (Nat.div_unique _ _ _ w); lia). rewrite E2.
  assert (E3 : (h * n2 + w) mod n2 = w) by (symmetry; apply (Nat.mod_unique _ _ h); lia). rewrite E3.
  assert (E4 : ((h * n2 + w) * n3 + c) mod n3 = c) by (symmetry; apply (Nat.mod_unique _ _ (h * n2 + w)); lia). now rewrite E4.
Qed.

Lemma sum_split3 (g : nat * nat * nat -> C) n1 n2 n3 :
  Csum (fun i => g (split3 n2 n3 i)) (range (n1 * n2 * n3)) =
  sum_over [n1; n2] (fun k => Csum (fun c => g (nth 0 k 0, nth 1 k 0, c)) (range n3)).
Proof.
  rewrite Csum_range_mult, Csum_range_mult. cbn [sum_over]. apply Csum_ext. intros h _. apply Csum_ext. intros w Hw. apply Csum_ext. intros c Hc.
  apply in_range in Hw, Hc. rewrite split3_flat by assumption. reflexivity.
Qed.

Lemma simplified_axis (same : bool) n : 0 < n -> axis same n n n 1 1 0.
Proof.
  intros Hn. unfold axis. split; [lia|]. destruct same; split; try lia.
  replace (Z.max 0 _) with 0%Z by lia. reflexivity.
Qed.

Lemma list2 (o : list nat) a b : Forall2 lt o [a; b] -> exists i j, o = [i; j] /\ i < a /\ j < b.
Proof.
  intros H. inversion H as [|i ? o1 ? H1 H2]; subst. inversion H2 as [|j ? o2 ? H3 H4]; subst. inversion H4; subst. eauto.
Qed.

Lemma simplified_ok (same : bool) data filters d0 d1 d2 d3 f3 :
  dims data = (d0, d1, d2, d3) -> dims filters = (d1, d2, d3, f3) -> 0 < d1 -> 0 < d2 ->
  is_convolution same (to_image NHWC data) (to_filter filters) [d1; d2] [1; 1] (to_image NHWC (simplified_conv2d data filters)).
Proof.
  intros ED EF H1 H2. unfold simplified_conv2d, to_image, to_filter. rewrite ED, EF. cbn [dims]. exists [0; 0]. cbn [sizes ksizes batch channels outputs pixel].
  split; [repeat (constructor; [apply simplified_axis; assumption|]); constructor|]. split; [reflexivity|]. split; [reflexivity|].
  intros b o f Ho. destruct (list2 _ _ _ Ho) as [i [j [-> [Hi Hj]]]]. assert (i = 0) by lia. assert (j = 0) by lia. subst i j. cbn [nth at4].
  unfold convolved. cbn [ksizes inputs].
  transitivity (Csum (fun i => (fun q : nat * nat * nat => (at4 data b (fst (fst q)) (snd (fst q)) (snd q) * at4 filters (fst (fst q)) (snd (fst q)) (snd q) f)%C)
    (split3 d2 d3 i)) (range (d1 * d2 * d3))).
  { apply Csum_ext. intros i _. destruct (split3 d2 d3 i) as [[h w] c]. reflexivity. }
  rewrite (sum_split3 (fun q : nat * nat * nat => (at4 data b (fst (fst q)) (snd (fst q)) (snd q) * at4 filters (fst (fst q)) (snd (fst q)) (snd q) f)%C)).
  apply sum_over_ext. intros k Hk. apply in_raster in Hk. apply Csum_ext. intros c Hc. cbn [fst snd tap].
  inversion Hk as [|h ? k' ? Hh Hk']; subst. inversion Hk' as [|w ? k'' ? Hw Hk'']; subst. inversion Hk''; subst. cbn [nth].
  unfold value_at. cbn [sizes read_position within].
  replace (Z.of_nat 0 * Z.of_nat d1 + Z.of_nat h * Z.of_nat 1 - Z.of_nat 0)%Z with (Z.of_nat h) by lia.
  replace (Z.of_nat 0 * Z.of_nat d2 + Z.of_nat w * Z.of_nat 1 - Z.of_nat 0)%Z with (Z.of_nat w) by lia.
  rewrite (proj2 (Z.leb_le 0 (Z.of_nat h))), (proj2 (Z.ltb_lt (Z.of_nat h) (Z.of_nat d1))) by lia.
  rewrite (proj2 (Z.leb_le 0 (Z.of_nat w))), (proj2 (Z.ltb_lt (Z.of_nat w) (Z.of_nat d2))) by lia. cbn [andb map pixel nth]. now rewrite !Nat2Z.id.
Qed.

Lemma to_of_image same format x w ss ds r : length (sizes x) = 2 -> is_convolution same x w ss ds r ->
  is_convolution same x w ss ds (to_image format (of_image format r)).
Proof.
  intros L [before [A [B [Ch V]]]]. pose proof (axes_lengths _ _ _ _ _ _ _ A) as [LR _]. exists before.
  destruct (sizes r) as [|n1 [|n2 [|]]] eqn:ES; cbn in LR; try lia.
  assert (G : forall b o f, Forall2 lt o [n1; n2] -> pixel r b [nth 0 o 0; nth 1 o 0] f = convolved x w ss ds before b o f).
  { intros b o f Ho. destruct (list2 _ _ _ Ho) as [i [j [-> _]]]. cbn [nth]. apply V. exact Ho. }
  destruct format; unfold to_image, of_image; rewrite ES; cbn [dims nth batch sizes channels pixel at4]; repeat (split; [assumption|]); exact G.
Qed.

Lemma image_lengths {T} format (t : tensor4 T) : length (sizes (to_image format t)) = 2.
Proof. unfold to_image. destruct (dims t) as [[[? ?] ?] ?]. now destruct format. Qed.

Lemma general_ok same format data filters strides dilations ss ds :
  spatial format strides = Ok ss -> spatial format dilations = Ok ds ->
  fitting same (sizes (to_image format data)) (ksizes (to_filter filters)) ss ds -> inputs (to_filter filters) = channels (to_image format data) ->
  exists r, general_conv2d data filters strides same format dilations = Ok r /\
    is_convolution same (to_image format data) (to_filter filters) ss ds (to_image format r).
Proof.
  intros ES ED F EI. unfold general_conv2d. rewrite ES, ED. cbn [bind].
  destruct (complex_ok true same ss ds _ _ F EI (or_introl eq_refl)) as [r [E [HC _]]]. rewrite E. cbn [bind]. eexists. split; [reflexivity|].
  apply to_of_image; [apply image_lengths|exact HC].
Qed.

Lemma conv2d_ok known same format data filters strides dilations ss ds :
  spatial format strides = Ok ss -> spatial format dilations = Ok ds ->
  fitting same (sizes (to_image format data)) (ksizes (to_filter filters)) ss ds -> inputs (to_filter filters) = channels (to_image format data) ->
  known = false \/ coincide (dims data) (dims filters) strides = false \/ (format = NHWC /\ dilations = (1, 1, 1, 1)) ->
  exists r, conv2d_complex known data filters strides same format dilations = Ok r /\
    is_convolution same (to_image format data) (to_filter filters) ss ds (to_image format r).
Proof.
  intros ES ED F EI H. unfold conv2d_complex. unfold coincide in H.
  destruct (dims data) as [[[d0 d1] d2] d3] eqn:DD. destruct (dims filters) as [[[f0 f1] f2] f3] eqn:DF. destruct strides as [[[s0 s1] s2] s3].
  rewrite <- !andb_assoc in *.
  destruct known; cbn [andb] in *; [|apply general_ok; assumption].
  destruct ((d1 =? f0) && ((d2 =? f1) && ((d3 =? f2) && ((s1 =? f0) && (s2 =? f1))))) eqn:C; [|apply general_ok; assumption].
  destruct H as [H|[H|[-> ->]]]; try discriminate. rewrite !andb_true_iff, !Nat.eqb_eq in C. destruct C as [-> [-> [-> [-> ->]]]].
  eexists. split; [reflexivity|]. cbn [spatial] in ED. injection ED as <-.
  assert (ss = [f0; f1]) by (cbn [spatial] in ES; destruct ((s0 =? 1) && (s3 =? 1)); [now injection ES|discriminate]). subst ss.
  revert F. unfold to_image at 1, to_filter at 1. rewrite DD, DF. cbn [sizes ksizes]. intros F.
  inversion F as [|n k s d ns ks ss ds Hn Hk Hs Hd HF F']; subst. inversion F' as [|n2 k2 s2' d2 ns2 ks2 ss2 ds2 Hn2]; subst.
  eapply simplified_ok; eassumption.
Qed.

(** * Patches *)
Lemma floormod_range x y : (0 < y)%R -> (0 <= floormod x y < y)%R.
Proof.
  intros Hy. unfold floormod. pose proof (base_Int_part (x / y)) as [B1 B2]. set (n := IZR (Int_part (x / y))) in *.
  assert (E : (x = x / y * y)%R) by (field; lra). set (q := (x / y)%R) in *. rewrite E. split; nra.
Qed.

Lemma floormod_exp re x : Cexp (re, floormod x (2 * PI)) = Cexp (re, x).
Proof.
  unfold floormod. set (n := Int_part (x / (2 * PI))).
  assert (G : forall (k : nat) z, cos (z + INR k * (2 * PI)) = cos z /\ sin (z + INR k * (2 * PI)) = sin z).
  { intros k z. replace (z + INR k * (2 * PI))%R with (z + 2 * INR k * PI)%R by ring. split; [apply cos_period|apply sin_period]. }
  assert (P : forall z, cos (z - IZR n * (2 * PI)) = cos z /\ sin (z - IZR n * (2 * PI)) = sin z).
  { intros z. destruct (Z_le_gt_dec 0 n) as [L|L].
    - destruct (G (Z.to_nat n) (z - IZR n * (2 * PI))%R) as [E1 E2]. rewrite INR_IZR_INZ, Z2Nat.id in E1, E2 by lia.
      replace (z - IZR n * (2 * PI) + IZR n * (2 * PI))%R with z in * by ring. now rewrite <- E1, <- E2.
    - destruct (G (Z.to_nat (- n)) z) as [E1 E2]. rewrite INR_IZR_INZ, Z2Nat.id, opp_IZR in E1, E2 by lia.
      replace (z - IZR n * (2 * PI))%R with (z + - IZR n * (2 * PI))%R by ring. auto. }
  unfold Cexp. cbn [fst snd]. destruct (P x) as [-> ->]. reflexivity.
Qed.

Lemma fitting2 same n1 n2 k1 k2 s1 s2 d1 d2 : fitting same [n1; n2] [k1; k2] [s1; s2] [d1; d2] ->
  let pads := paddings same [n1; n2] [k1; k2] [s1; s2] [d1; d2] in
  exists p1 p2, pads = [p1; p2] /\ out_sizes same [n1; n2] [k1; k2] [s1; s2] [d1; d2] =
    [valid_size (fst p1 + n1 + snd p1) k1 s1 d1; valid_size (fst p2 + n2 + snd p2) k2 s2 d2].
Proof. intros _ pads. subst pads. unfold out_sizes, paddings. destruct same; cbn [map4 map map2]; eauto. Qed.

Lemma real_patches_ok same n1 n2 kh kw sh sw rh rw (g : C -> R) (images : tensor4 C) d0 ch :
  g C0 = 0%R ->
  dims images = (d0, n1, n2, ch) -> fitting same [n1; n2] [kh; kw] [sh; sw] [rh; rw] ->
  exists P, extract_image_patches kh kw sh sw rh rw same (map4d g images) = Ok P /\
    dims P = (d0, nth 0 (out_sizes same [n1; n2] [kh; kw] [sh; sw] [rh; rw]) 0, nth 1 (out_sizes same [n1; n2] [kh; kw] [sh; sw] [rh; rw]) 0, kh * kw * ch) /\
    forall b i j h w c, Forall2 lt [i; j] (out_sizes same [n1; n2] [kh; kw] [sh; sw] [rh; rw]) -> h < kh -> w < kw -> c < ch ->
      at4 P b i j ((h * kw + w) * ch + c) =
      g (value_at (to_image NHWC images) b (read_position [sh; sw] [rh; rw] (befores same [n1; n2] [kh; kw] [sh; sw] [rh; rw]) [i; j] [h; w]) c).
Proof.
  intros Hg ED F. destruct (fitting_axes _ _ _ _ _ F) as [A B]. cbv zeta in A, B.
  assert (EX : to_image NHWC (map4d g images) = {| batch := d0; sizes := [n1; n2]; channels := ch;
    pixel := fun b l c => g (at4 images b (nth 0 l 0) (nth 1 l 0) c) |}) by (unfold to_image, map4d; cbn [dims]; rewrite ED; reflexivity).
  assert (EY : to_image NHWC images = {| batch := d0; sizes := [n1; n2]; channels := ch;
    pixel := fun b l c => at4 images b (nth 0 l 0) (nth 1 l 0) c |}) by (unfold to_image; rewrite ED; reflexivity).
  unfold extract_image_patches. rewrite EX, EY. cbv zeta. unfold out_sizes, befores, paddings in *.
  destruct same.
  - cbn [zero_pad sizes batch channels] in *. rewrite B. cbn [negb]. eexists. split; [reflexivity|]. cbn [dims at4]. split; [reflexivity|].
    intros b i j h w c Ho Hh Hw Hc. rewrite split3_flat by assumption. cbn [zero_pad pixel sizes].
    replace [i * sh + h * rh; j * sw + w * rw] with (map2 Nat.add (map2 Nat.mul [i; j] [sh; sw]) (map2 Nat.mul [h; w] [rh; rw])) by reflexivity.
    rewrite inside_read by reflexivity. unfold value_at. cbn [sizes pixel]. destruct (within _ _); [reflexivity|now rewrite Hg].
  - rewrite map2_zero in *. cbn [sizes batch channels] in *. rewrite B. cbn [negb]. eexists. split; [reflexivity|]. cbn [dims at4]. split; [reflexivity|].
    intros b i j h w c Ho Hh Hw Hc. rewrite split3_flat by assumption. cbn [pixel].
    destruct (read_valid _ _ _ _ _ _ A [i; j] [h; w] Ho ltac:(repeat constructor; assumption)) as [E1 E2]. cbv zeta in E1, E2.
    unfold value_at. cbn [sizes pixel]. rewrite E1, E2. reflexivity.
Qed.

Lemma patches_ok same clip n1 n2 kh kw sh sw rh rw (images : tensor4 C) d0 ch :
  dims images = (d0, n1, n2, ch) -> fitting same [n1; n2] [kh; kw] [sh; sw] [rh; rw] ->
  exists P oh ow before, extract_complex_image_patches kh kw sh sw rh rw same clip images = Ok P /\
    axes same [n1; n2] [kh; kw] [sh; sw] [rh; rw] [oh; ow] before /\ dims P = (d0, oh, ow, kh * kw * ch) /\
    forall b i j h w c, i < oh -> j < ow -> h < kh -> w < kw -> c < ch ->
      let patch := at4 P b i j ((h * kw + w) * ch + c) in
      let z := value_at (to_image NHWC images) b (read_position [sh; sw] [rh; rw] before [i; j] [h; w]) c in
      if clip then Cexp patch = Cexp z /\ Re patch = Re z /\ (0 <= Im patch < 2 * PI)%R else patch = z.
Proof.
  intros ED F. destruct (fitting_axes _ _ _ _ _ F) as [A _]. cbv zeta in A.
  destruct (fitting2 _ _ _ _ _ _ _ _ _ F) as [p1 [p2 [EP EO]]]. cbv zeta in EP. fold (out_sizes same [n1; n2] [kh; kw] [sh; sw] [rh; rw]) in A. rewrite EO in A.
  destruct (real_patches_ok same n1 n2 kh kw sh sw rh rw Re images d0 ch eq_refl ED F) as [PR [E1 [D1 V1]]].
  destruct (real_patches_ok same n1 n2 kh kw sh sw rh rw Im images d0 ch eq_refl ED F) as [PI' [E2 [D2 V2]]].
  rewrite EO in D1, V1, V2. cbn [nth] in D1.
  unfold extract_complex_image_patches. rewrite E1, E2. cbn [bind]. do 4 eexists. split; [reflexivity|]. split; [exact A|]. cbn [dims at4]. split; [exact D1|].
  intros b i j h w c Hi Hj Hh Hw Hc. cbv zeta.
  assert (HO : Forall2 lt [i; j] [valid_size (fst p1 + n1 + snd p1) kh sh rh; valid_size (fst p2 + n2 + snd p2) kw sw rw]) by (repeat constructor; assumption).
  fold (befores same [n1; n2] [kh; kw] [sh; sw] [rh; rw]).
  destruct clip; cbn [map4d at4]; rewrite (V1 _ _ _ _ _ _ HO Hh Hw Hc), (V2 _ _ _ _ _ _ HO Hh Hw Hc).
  - set (z := value_at _ _ _ _). rewrite floormod_exp. split; [now destruct z|]. split; [reflexivity|]. unfold Im at 1 3. cbn [snd].
    apply floormod_range. pose proof PI_RGT_0. lra.
  - now destruct (value_at _ _ _ _).
Qed.

Lemma matmul_patches (x : image C) (w : filter C) kh kw ss ds before b i j f (patch : nat -> C) :
  ksizes w = [kh; kw] ->
  (forall h v c, h < kh -> v < kw -> c < inputs w -> patch ((h * kw + v) * inputs w + c) = value_at x b (read_position ss ds before [i; j] [h; v]) c) ->
  Csum (fun p => (patch p * (let '(h, v, c) := split3 kw (inputs w) p in tap w [h; v] c f))%C) (range (kh * kw * inputs w)) =
  convolved x w ss ds before b [i; j] f.
Proof.
  intros EK H. unfold convolved. rewrite EK. rewrite Csum_range_mult, Csum_range_mult. cbn [sum_over].
  apply Csum_ext. intros h Hh. apply Csum_ext. intros v Hv. apply Csum_ext. intros c Hc. apply in_range in Hh, Hv, Hc.
  rewrite H, split3_flat by assumption. reflexivity.
Qed.

Lemma pixel_image {T} (r : tensor4 T) b i j c : pixel (to_image NHWC r) b [i; j] c = at4 r b i j c /\ pixel (to_image NCHW r) b [i; j] c = at4 r b c i j.
Proof. unfold to_image. destruct (dims r) as [[[? ?] ?] ?]. split; reflexivity. Qed.
