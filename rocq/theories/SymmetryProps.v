(** C41 - C44: symmetrised wave functions and the translation invariant RBM. *)
From Coq Require Import List ZArith Arith Bool Reals Lia Lra Permutation.
From Verif Require Import Base OrderingModel OrderingSpec OrderingProofs Cplx AutoregressiveSpec ComplexModel ComplexSpec ComplexProofs SymmetryModel SymmetrySpec
  SymmetryProofs SymmetryEnsembleProofs RbmProofs.
Import ListNotations.

(** A Keras model that treats every example of a batch alike. *)
Definition model_of (psi : list nat * list Z -> C) (M : list (array Z) -> res (list C)) : Prop := forall batch, M batch = Ok (map psi batch).

(** * C41 *)

(** On a square grid, a batch of turned or mirrored configurations gives the same values (with either way of combining). *)
Theorem C41_obc_invariant : forall probabilistic psi M N xs ys, model_of psi M ->
  Forall (fun x => length x = N * N) xs -> (Forall2 (turned N N) xs ys \/ Forall2 (mirrored N N) xs ys) ->
  make_2d_obc_invariants probabilistic M (map (pair [N; N]) ys) = make_2d_obc_invariants probabilistic M (map (pair [N; N]) xs).
Proof.
  intros p psi M N xs ys A L [F|F].
  - exact (obc_turned M psi p N N xs ys (fun b _ => A b) L F).
  - exact (obc_mirrored M psi p N N xs ys (fun b _ => A b) L F).
Qed.
Print Assumptions C41_obc_invariant.
Example C41_obc_invariant_ex : Forall2 (turned 2 2) [[1; 1; -1; 1]%Z] [[1; 1; 1; -1]%Z] /\ Forall2 (mirrored 2 2) [[1; 1; -1; 1]%Z] [[1; 1; 1; -1]%Z].
Proof.
  split; repeat constructor; intros [|[|i]] [|[|j]] Hi Hj; try lia; reflexivity.
Qed.

(** On any grid, a turned configuration lives on the turned grid. *)
Theorem C41_obc_rectangular : forall probabilistic psi M h w xs ys, model_of psi M -> Forall (fun x => length x = h * w) xs ->
  (Forall2 (turned h w) xs ys ->
     make_2d_obc_invariants probabilistic M (map (pair [w; h]) ys) = make_2d_obc_invariants probabilistic M (map (pair [h; w]) xs)) /\
  (Forall2 (mirrored h w) xs ys ->
     make_2d_obc_invariants probabilistic M (map (pair [h; w]) ys) = make_2d_obc_invariants probabilistic M (map (pair [h; w]) xs)).
Proof.
  intros p psi M h w xs ys A L. split; intros F.
  - exact (obc_turned M psi p h w xs ys (fun b _ => A b) L F).
  - exact (obc_mirrored M psi p h w xs ys (fun b _ => A b) L F).
Qed.
Print Assumptions C41_obc_rectangular.
Example C41_obc_rectangular_ex : turned 1 2 [1; -1]%Z [-1; 1]%Z.
Proof. split; [reflexivity|]. intros [|[|i]] [|j] Hi Hj; try lia; reflexivity. Qed.

(** The value is the combination of the eight images. *)
Theorem C41_obc_value : forall probabilistic psi M h w x, model_of psi M -> length x = h * w ->
  exists r1 r2 r3 m0 m1 m2 m3 z,
    turned h w x r1 /\ turned w h r1 r2 /\ turned h w r2 r3 /\
    mirrored h w x m0 /\ mirrored w h r1 m1 /\ mirrored h w r2 m2 /\ mirrored w h r3 m3 /\
    make_2d_obc_invariants probabilistic M [([h; w], x)] = Ok [z] /\
    combined probabilistic
      (map psi [([h; w], x); ([w; h], r1); ([h; w], r2); ([w; h], r3); ([h; w], m0); ([w; h], m1); ([h; w], m2); ([w; h], m3)]) z.
Proof. intros p psi M h w x A L. exact (obc_images M psi p h w x (fun b _ => A b) L). Qed.
Print Assumptions C41_obc_value.
Example C41_obc_value_ex : model_of (fun x => RtoC (IZR (pixel 2 (snd x) 0 1))) (fun b => Ok (map (fun x => RtoC (IZR (pixel 2 (snd x) 0 1))) b)).
Proof. intros b. reflexivity. Qed.

(** * C42 *)

Theorem C42_pbc_invariant : forall probabilistic obc psi M shape xs ys, model_of psi M -> 0 < volume shape ->
  (obc = true -> length shape = 2) ->
  Forall (fun x => length x = volume shape) xs -> Forall2 (fun x y => exists t, translated shape t x y) xs ys ->
  make_pbc_invariants shape obc probabilistic M (map (pair shape) ys) = make_pbc_invariants shape obc probabilistic M (map (pair shape) xs).
Proof. intros p obc psi M shape xs ys A V D L F. exact (pbc_translated M psi p shape obc xs ys (fun b _ => A b) V D L F). Qed.
Print Assumptions C42_pbc_invariant.
Example C42_pbc_invariant_ex : translated [3] [4] [1; 1; -1]%Z [-1; 1; 1]%Z /\ translated [2; 2] [1; 1] [1; 1; -1; 1]%Z [1; -1; 1; 1]%Z.
Proof.
  split; (split; [reflexivity|split; [reflexivity|]]); intros l H.
  - inversion H as [|i ? l' ? Hi T]; subst. inversion T; subst. destruct i as [|[|[|i]]]; try lia; reflexivity.
  - apply in_shape_2 in H. destruct H as (i & j & -> & Hi & Hj). destruct i as [|[|i]], j as [|[|j]]; try lia; reflexivity.
Qed.

(** With the additional option also rotations and mirror images. *)
Theorem C42_pbc_option : forall probabilistic psi M h w xs ys, model_of psi M -> 0 < h -> 0 < w -> Forall (fun x => length x = h * w) xs ->
  (Forall2 (turned h w) xs ys ->
     make_pbc_invariants [w; h] true probabilistic M (map (pair [w; h]) ys) = make_pbc_invariants [h; w] true probabilistic M (map (pair [h; w]) xs)) /\
  (Forall2 (mirrored h w) xs ys ->
     make_pbc_invariants [h; w] true probabilistic M (map (pair [h; w]) ys) = make_pbc_invariants [h; w] true probabilistic M (map (pair [h; w]) xs)).
Proof.
  intros p psi M h w xs ys A Hh Hw L. split; intros F.
  - exact (pbc_turned M psi p h w xs ys (fun b _ => A b) Hh Hw L F).
  - exact (pbc_mirrored M psi p h w xs ys (fun b _ => A b) Hh Hw L F).
Qed.
Print Assumptions C42_pbc_option.
Example C42_pbc_option_ex : Forall2 (mirrored 2 3) [[1; 1; -1; -1; 1; -1]%Z] [[-1; 1; 1; -1; 1; -1]%Z].
Proof. repeat constructor. intros [|[|i]] [|[|[|j]]] Hi Hj; try lia; reflexivity. Qed.

(** The value is the combination of all translations; the option needs two dimensions. *)
Theorem C42_pbc_value : forall probabilistic psi M shape x, model_of psi M -> 0 < volume shape ->
  (exists ts ys z, ordering_of shape ts /\ Forall2 (fun t y => translated shape t x y) ts ys /\
    make_pbc_invariants shape false probabilistic M [(shape, x)] = Ok [z] /\ combined probabilistic (map (fun y => psi (shape, y)) ys) z) /\
  (length shape <> 2 -> make_pbc_invariants shape true probabilistic M [(shape, x)] = Err AssertionError).
Proof.
  intros p psi M shape x A V. split.
  - exact (pbc_images M psi p shape x (fun b _ => A b) V).
  - intros D. exact (pbc_obc_rejects shape p M x [] D V).
Qed.
Print Assumptions C42_pbc_value.
Example C42_pbc_value_ex : 0 < volume [3] /\ length [3] <> 2.
Proof. cbn. lia. Qed.

(** * C43 *)

(** Any family of transformations that permute the configurations. *)
Theorem C43_norm_preserved : forall psi M n (shape : list nat) (Ts : list (list Z -> list Z)), model_of psi M -> Ts <> [] ->
  Forall (permutes_configurations n) Ts ->
  exists values, build_symmetrization_ensemble true M (map (fun T => map (fun s => (shape, T s)) (spin_configs n)) Ts) = Ok values /\
    Rsum weight values = Rsum (fun s => weight (psi (shape, s))) (spin_configs n).
Proof. intros psi M n shape Ts A NE F. exact (symmetrization_norm M psi n shape Ts (fun b _ => A b) NE F). Qed.
Print Assumptions C43_norm_preserved.
Example C43_norm_preserved_ex : Forall (permutes_configurations 2) [(fun s => s); (@rev Z)].
Proof.
  repeat constructor; intros t Ht; [exists t; auto|]. exists (rev t). split; [|apply rev_involutive].
  cbn in Ht. repeat (destruct Ht as [<-|Ht]; [cbn; tauto|]). contradiction.
Qed.

(** The symmetrisations of the library. *)
Theorem C43_symmetrisations_preserve_norm : forall psi M, model_of psi M ->
  (forall N, exists values, make_2d_obc_invariants true M (map (pair [N; N]) (spin_configs (N * N))) = Ok values /\
     Rsum weight values = Rsum (fun s => weight (psi ([N; N], s))) (spin_configs (N * N))) /\
  (forall shape obc, 0 < volume shape -> (obc = true -> exists N, shape = [N; N]) ->
     exists values, make_pbc_invariants shape obc true M (map (pair shape) (spin_configs (volume shape))) = Ok values /\
     Rsum weight values = Rsum (fun s => weight (psi (shape, s))) (spin_configs (volume shape))) /\
  (forall shape n, exists values, make_up_down_invariant true M (map (pair shape) (spin_configs n)) = Ok values /\
     Rsum weight values = Rsum (fun s => weight (psi (shape, s))) (spin_configs n)).
Proof.
  intros psi M A. split; [|split].
  - intros N. exact (obc_norm M psi N (fun b _ => A b)).
  - intros shape obc V D. exact (pbc_norm M psi shape obc (fun b _ => A b) V D).
  - intros shape n. exact (up_down_norm M psi shape n (fun b _ => A b)).
Qed.
Print Assumptions C43_symmetrisations_preserve_norm.
Example C43_symmetrisations_ex : model_of (fun x => RtoC (IZR (sumZ (snd x)))) (fun b => Ok (map (fun x => RtoC (IZR (sumZ (snd x)))) b)) /\ 0 < volume [2; 2].
Proof. split; [intros b; reflexivity|cbn; lia]. Qed.

(** Global flip: invariance, and the value. *)
Theorem C43_up_down : forall probabilistic psi M (shape : list nat) xs x, model_of psi M ->
  make_up_down_invariant probabilistic M (map (fun x => (shape, map Z.opp x)) xs) = make_up_down_invariant probabilistic M (map (pair shape) xs) /\
  exists z, make_up_down_invariant probabilistic M [(shape, x)] = Ok [z] /\ combined probabilistic [psi (shape, x); psi (shape, map Z.opp x)] z.
Proof.
  intros p psi M shape xs x A. split.
  - exact (up_down_invariant M psi p shape xs (fun b _ => A b)).
  - exact (up_down_images M psi p shape x (fun b _ => A b)).
Qed.
Print Assumptions C43_up_down.
Example C43_up_down_ex : make_up_down_invariant true (fun b => Ok (map (fun x => RtoC (IZR (nth 0 (snd x) 0%Z))) b)) [([2], [1; -1]%Z)]
  = make_up_down_invariant true (fun b => Ok (map (fun x => RtoC (IZR (nth 0 (snd x) 0%Z))) b)) [([2], [-1; 1]%Z)].
Proof. symmetry. exact (proj1 (C43_up_down true (fun x => RtoC (IZR (nth 0 (snd x) 0%Z))) _ [2] [[1; -1]%Z] [] (fun b => eq_refl))). Qed.

(** Errors: more shifts than dimensions, no member, no transformation. *)
Theorem C43_errors : forall probabilistic M (shifts : list Z) (x : list nat * list Z), length (fst x) < length shifts ->
  Roll shifts x = Err ValueError /\ build_ensemble probabilistic [] = Err ValueError /\ build_symmetrization_ensemble probabilistic M [] = Err IndexError.
Proof. intros p M sh x H. unfold Roll. rewrite (proj2 (Nat.leb_gt _ _) H). repeat split. Qed.
Print Assumptions C43_errors.
(** Rotations and reflections need two dimensions. *)
Theorem C43_dimensions : forall turns (x : list nat * list Z), (length (fst x) <> 2 -> Rot90 turns x = Err AssertionError /\ FlipLeftRight x = Err AssertionError) /\
  (length (fst x) = 2 -> (exists y, Rot90 turns x = Ok y) /\ exists y, FlipLeftRight x = Ok y).
Proof.
  intros t x. unfold Rot90, FlipLeftRight. split; intro H.
  - rewrite (proj2 (Nat.eqb_neq _ _) H). split; reflexivity.
  - rewrite H. split; eexists; reflexivity.
Qed.
Print Assumptions C43_dimensions.
Example C43_dimensions_ex : length (fst ([2; 1; 1], [1; 1]%Z)) <> 2 /\ length (fst ([2; 1], [1; 1]%Z)) = 2. Proof. split; [discriminate|reflexivity]. Qed.
Example C43_errors_ex : length (fst ([2], [1; 1]%Z)) < length [1; 1]%Z. Proof. cbn. lia. Qed.

(** The average of amplitudes does not preserve the norm: psi(+1) = 1 and psi(-1) = i have norm 2, the symmetrised function has norm 1. *)
Definition phase_i (x : list nat * list Z) : C := if (nth 0 (snd x) 0 =? 1)%Z then C0 else (0, PI / 2)%R.
Theorem C43_average_norm_refuted : exists psi M values, model_of psi M /\
  make_up_down_invariant false M (map (pair [1]) (spin_configs 1)) = Ok values /\
  Rsum weight values <> Rsum (fun s => weight (psi ([1], s))) (spin_configs 1).
Proof.
  exists phase_i, (fun b => Ok (map phase_i b)). eexists. split; [intros b; reflexivity|].
  split; [apply (up_down_value _ phase_i false _ (fun b _ => eq_refl))|].
  cbn [map spin_configs strings flat_map app]. unfold flip_spins. cbn [fst snd map].
  change (1 * -1)%Z with (-1)%Z. change (-1 * -1)%Z with 1%Z.
  change (phase_i ([1], [1%Z])) with C0. change (phase_i ([1], [(-1)%Z])) with (0, PI / 2)%R.
  assert (W : forall a b, a = C0 /\ b = (0, PI / 2)%R \/ a = (0, PI / 2)%R /\ b = C0 ->
    weight (ensemble_op false 2 [a; b]) = (1 / 2)%R).
  { intros a b H.
    assert (S : Csum Cexp [a; b] = (1, 1)%R).
    { destruct H as [[-> ->]|[-> ->]]; cbn; unfold Cexp, Cplus, C0; cbn [fst snd]; rewrite exp_0, cos_0, sin_0, cos_PI2, sin_PI2;
        apply C_eq; unfold Re, Im; cbn [fst snd]; ring. }
    assert (E := ensemble_combined false [a; b] ltac:(discriminate)). cbn [combined] in E. rewrite S in E.
    specialize (E ltac:(intros Q; injection Q; lra)). cbn [length] in E.
    apply (f_equal Cnorm2) in E. cbn [INR] in E.
    replace (Cnorm2 (Cexp (ensemble_op false 2 [a; b]) * RtoC (1 + 1))) with (4 * Cnorm2 (Cexp (ensemble_op false 2 [a; b])))%R in E
      by (unfold Cnorm2, Cmult, RtoC; cbn [fst snd]; ring).
    rewrite Cnorm2_exp in E. unfold weight. replace (Cnorm2 (1, 1)%R) with 2%R in E by (unfold Cnorm2; cbn; ring). lra. }
  cbn [Rsum fold_right]. rewrite !W by auto.
  change (phase_i ([1], [1%Z])) with C0. change (phase_i ([1], [(-1)%Z])) with (0, PI / 2)%R. unfold weight, C0, Re. cbn [fst].
  rewrite Rmult_0_r, exp_0. lra.
Qed.
Print Assumptions C43_average_norm_refuted.

(** * C44 *)

Theorem C44_rbm_sym_invariant : forall shape alpha bare_kernel bare_bias a t s s', 0 < volume shape -> length s = volume shape ->
  length bare_bias = alpha -> translated shape t s s' ->
  rbm_sym shape alpha bare_kernel bare_bias [a] s' = rbm_sym shape alpha bare_kernel bare_bias [a] s.
Proof. exact rbm_sym_translated. Qed.
Print Assumptions C44_rbm_sym_invariant.
Example C44_rbm_sym_invariant_ex : translated [3] [1] [1; 1; -1]%Z [-1; 1; 1]%Z /\ 0 < volume [3].
Proof.
  split; [|cbn; lia]. split; [reflexivity|split; [reflexivity|]]. intros l H.
  inversion H as [|i ? l' ? Hi T]; subst. inversion T; subst. destruct i as [|[|[|i]]]; try lia; reflexivity.
Qed.

(** The function itself: a visible bias common to all sites, and one hidden unit per filter and translation, whose weights are the filter
    moved to that place. *)
Theorem C44_rbm_sym_value : forall shape o alpha bare_kernel bare_bias a s, 0 < volume shape -> length s = volume shape ->
  length bare_bias = alpha -> ordering_of shape o ->
  rbm_sym shape alpha bare_kernel bare_bias [a] s =
  (a * Csum (fun v => RtoC (IZR v)) s +
   Csum (fun u => Csum (fun t => lncosh (nth u bare_bias C0 +
     Csum (fun l => RtoC (IZR (nth (row_major shape (shifted shape t l)) s 0%Z)) * nth (row_major shape l * alpha + u) bare_kernel C0) o)) o)
     (seq 0 alpha))%C.
Proof.
  intros shape o alpha K b a s V L Lb [N I]. rewrite rbm_sym_formula by assumption. f_equal.
  assert (P : Permutation (raster shape) o).
  { apply NoDup_Permutation; [apply raster_NoDup|exact N|]. intros l. rewrite in_raster, I. reflexivity. }
  apply Csum_ext. intros u _. rewrite (Csum_perm _ _ _ P). apply Csum_ext. intros t _. now rewrite (Csum_perm _ _ _ P).
Qed.
Print Assumptions C44_rbm_sym_value.
Example C44_rbm_sym_value_ex : ordering_of [2; 2] [[0; 0]; [1; 1]; [0; 1]; [1; 0]].
Proof.
  split; [repeat constructor; cbn; intuition discriminate|]. intros l. split.
  - intros H. cbn in H. apply in_shape_2. repeat (destruct H as [<-|H]; [eexists _, _; split; [reflexivity|lia]|]). contradiction.
  - intros H. apply in_shape_2 in H. destruct H as (i & j & -> & Hi & Hj). destruct i as [|[|i]], j as [|[|j]]; try lia; cbn; tauto.
Qed.

(** The machine without symmetry, for comparison. *)
Theorem C44_rbm_value : forall alpha kernel bias visible s, length bias = alpha * length s ->
  rbm alpha kernel bias visible s =
  (Csum (fun v => RtoC (IZR (nth v s 0%Z)) * nth v visible C0) (seq 0 (length s)) +
   Csum (fun j => lncosh (nth j bias C0 + Csum (fun v => RtoC (IZR (nth v s 0%Z)) * nth (v * (alpha * length s) + j) kernel C0) (seq 0 (length s))))
        (seq 0 (alpha * length s)))%C.
Proof. exact rbm_formula. Qed.
Print Assumptions C44_rbm_value.
Example C44_rbm_value_ex : length [C0; C1; C0; C1] = 2 * length [1; -1]%Z.
Proof. reflexivity. Qed.
