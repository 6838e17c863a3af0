(** Property C87 (deepar/samplers, samplers, optimization/mini_batch_generator.py, optimization/variational_monte_carlo.py, experiments/train.py). *)
From Coq Require Import List ZArith Reals Lra Lia Bool Arith.
From Verif Require Import Base Cplx AutoregressiveSpec ObservableModel ObservableSpec ExactModel ExactSpec ExactGradientProofs TrainingModel TrainingProofs MonteCarloModel
  MonteCarloSpec MonteCarloProofs MonteCarloProps ConfigModel StagesModel BatchesModel BatchesSpec BatchesProofs.
Import ListNotations.

(** C87: the sizes of a new sampler. The mini batch size defaults to the batch size and never exceeds it; only the Metropolis samplers refuse sizes, those which
    the number of chains does not divide. *)
Theorem C87_new_sampler : forall (c : sampler_class) (b : nat) (mini : option nat), 0 < b -> mini <> Some 0 ->
  let made := {| s_class := c; s_batch := b; s_mini := match mini with None => b | Some m => min m b end |} in
  (match c with Metropolis k => 0 < k /\ b mod k = 0 | _ => True end -> new_sampler c b mini = Ok made /\ sized_sampler made) /\
  (forall k, c = Metropolis k -> 0 < k -> b mod k <> 0 -> new_sampler c b mini = Err GenericException) /\
  (c = Metropolis 0 -> new_sampler c b mini = Err ZeroDivisionError).
Proof.
  intros c b mini Hb Hm made. split; [|split].
  - intros Hc. destruct (new_sampler_ok c b mini Hb Hm) as (s & E & E1 & E2 & E3 & E4).
    { intros k ->. exact Hc. }
    replace made with s; [now split|]. destruct s as [x y z]. cbn in E1, E2, E3. unfold made. now rewrite E1, E2, E3.
  - intros k -> Hk Hd. unfold new_sampler. destruct (Nat.eqb_spec k 0); [lia|]. now destruct (Nat.eqb_spec (b mod k) 0).
  - intros ->. reflexivity.
Qed.
Print Assumptions C87_new_sampler.
Example C87_new_sampler_ex : 0 < 12 /\ Some 5 <> Some 0 /\ new_sampler (Metropolis 4) 12 (Some 5) = Ok {| s_class := Metropolis 4; s_batch := 12; s_mini := 5 |} /\
  new_sampler (Metropolis 5) 12 (Some 5) = Err GenericException.
Proof. repeat split; try lia; try discriminate. Qed.

(** C87: a copy has the sizes it is asked for, and inherits neither the batch size nor the mini batch size of the original: without a mini batch size the whole
    new batch is drawn at once. Samplers other than the two autoregressive ones have no such method, so the training scripts stop with them. *)
Theorem C87_copies : forall (s : sampler) (b : nat) (mini : option nat), 0 < b -> mini <> Some 0 ->
  (s_class s = SiteBySite \/ s_class s = FastGraph ->
     copy_with_new_batch_size s b mini = Ok {| s_class := s_class s; s_batch := b; s_mini := match mini with None => b | Some m => min m b end |}) /\
  (s_class s <> SiteBySite -> s_class s <> FastGraph ->
     copy_with_new_batch_size s b mini = Err AttributeError /\ forall m v, stage_generators s m b v = Err AttributeError).
Proof.
  intros s b mini Hb Hm. split.
  - intros Hs. destruct (copy_ok s b mini Hs Hb Hm) as (s' & E & E1 & E2 & E3 & _). rewrite E. f_equal. destruct s' as [x y z]. cbn in E1, E2, E3. now rewrite E1, E2, E3.
  - intros N1 N2. unfold stage_generators, copy_with_new_batch_size. destruct (s_class s); try congruence; now split.
Qed.
Print Assumptions C87_copies.
Example C87_copies_ex : copy_with_new_batch_size {| s_class := FastGraph; s_batch := 8; s_mini := 2 |} 100 None =
    Ok {| s_class := FastGraph; s_batch := 100; s_mini := 100 |} /\
  copy_with_new_batch_size {| s_class := Metropolis 2; s_batch := 8; s_mini := 2 |} 100 None = Err AttributeError.
Proof. split; reflexivity. Qed.

(** C87: the rows that come back. Every sampler but the fast one returns batch_size rows. The fast one leaves out the remainder of the division by the mini
    batch size: always more than half of the rows come, all of them exactly if the mini batch size divides the batch size. *)
Theorem C87_rows : forall (n : nat) (s : sampler) (draw : nat -> nat -> list (list Z)) (runs : nat), sized_sampler s -> configurations n draw ->
  exists runs' rows, sampler_rows draw s runs = Ok (runs', rows) /\ runs < runs' /\ length rows = rows_returned s /\ rows <> [] /\
    (forall r, In r rows -> In r (spin_configs n)) /\
    length rows <= s_batch s < 2 * length rows /\ s_batch s < length rows + s_mini s /\
    (length rows = s_batch s <-> s_class s <> FastGraph \/ s_batch s mod s_mini s = 0).
Proof.
  intros n s draw runs Hs Hd. destruct (sampler_rows_ok n s draw runs Hs Hd) as (k & rows & E & Hk & L & NE & A).
  destruct (rows_bounds s Hs) as (B1 & B2 & B3 & B4). exists k, rows. rewrite L. repeat (split; [assumption|]). split; [now split|]. now split.
Qed.
Print Assumptions C87_rows.
Definition all_up (k m : nat) : list (list Z) := repeat [1%Z] m.
Lemma all_up_configurations : configurations 1 all_up.
Proof. intros k m. split; [apply repeat_length|]. intros s Hs. apply repeat_spec in Hs. subst s. cbn; auto. Qed.
Example C87_rows_ex : sized_sampler {| s_class := FastGraph; s_batch := 11; s_mini := 4 |} /\ configurations 1 all_up /\
  rows_returned {| s_class := FastGraph; s_batch := 11; s_mini := 4 |} = 8 /\
  sampler_rows all_up {| s_class := FastGraph; s_batch := 11; s_mini := 4 |} 3 = Ok (5, repeat [1%Z] 8).
Proof. split; [unfold sized_sampler; cbn; lia|]. split; [exact all_up_configurations|]. split; reflexivity. Qed.

(** C87: one cycle of the generator: the mini batches are the consecutive slices of the rows, labelled with conj(E_loc - mean) / batch_size, where the mean is
    over the rows that came and batch_size is the nominal one. All come from the amplitudes of the moment when the cycle began. After batch_size // mini_batch_size
    mini batches the next cycle begins, so this describes every mini batch of a generator. *)
Theorem C87_cycle : forall (n : nat) (H : list Z -> list Z -> C) (op : operator) (log_psi : list Z -> C) (draw : nat -> nat -> list (list Z))
    (later : list ((list Z -> C) * (nat -> nat -> list (list Z)))) (v : monte_carlo),
  operator_represents n H op -> configurations n draw -> fits v -> due v ->
  let B := s_batch (mc_sampler v) in
  let g := gen_mini (mc_generator v) in
  S (length later) = B / g ->
  exists runs rows w outs, sampler_rows draw (mc_sampler v) (mc_runs v) = Ok (runs, rows) /\
    training_batches op ((log_psi, draw) :: later) v = Ok (w, outs) /\
    outs = map (fun j => part g j (labelled n H log_psi B rows)) (seq 0 (B / g)) /\
    mc_runs w = runs /\ fits w /\ due w /\ mc_sampler w = mc_sampler v /\ gen_mini (mc_generator w) = g /\
    gen_freq (mc_generator w) = gen_freq (mc_generator v) /\ mc_evaluation w = mc_evaluation v.
Proof.
  intros n H op lp draw later v HO Hd Hv Du B g HL. destruct (cycle n H op lp draw later v HO Hd Hv Du HL) as (runs & rows & w & E & _ & _ & T & Fw & Dw & K & R).
  destruct K as (K1 & K2 & K3 & K4 & K5). exists runs, rows, w. eexists. split; [exact E|]. split; [exact T|]. split; [now rewrite HL|].
  repeat (split; [assumption|]). assumption.
Qed.
Print Assumptions C87_cycle.
Definition example_generator : monte_carlo :=
  {| mc_sampler := {| s_class := FastGraph; s_batch := 10; s_mini := 6 |}; mc_runs := 0;
     mc_generator := {| gen_batch_size := 10; gen_mini := 2; gen_freq := 5; gen_idx := 10; gen_data := []; gen_fetched := 0 |}; mc_evaluation := 2 |}.
Lemma example_generator_ok : fits example_generator /\ due example_generator.
Proof. unfold fits, due, sized_sampler, example_generator; cbn; lia. Qed.
Example C87_cycle_ex : operator_represents 1 field_matrix field /\ configurations 1 all_up /\ fits example_generator /\ due example_generator /\
  new_monte_carlo {| s_class := FastGraph; s_batch := 10; s_mini := 6 |} (Some 2) None = Ok example_generator.
Proof. split; [exact field_represents|]. split; [exact all_up_configurations|]. split; [apply example_generator_ok|]. split; [apply example_generator_ok|reflexivity]. Qed.

(** C87: the sizes of the mini batches of a cycle and what they contain together. *)
Theorem C87_parts : forall (X : Type) (v : monte_carlo) (data : list X), fits v -> length data = rows_returned (mc_sampler v) ->
  let B := s_batch (mc_sampler v) in
  let g := gen_mini (mc_generator v) in
  let parts := map (fun j => part g j data) (seq 0 (B / g)) in
  (forall j, j < B / g -> length (part g j data) = min g (length data - j * g)) /\
  concat parts = firstn (B / g * g) data /\
  (length data = B -> Forall (fun p => length p = g) parts) /\
  (s_class (mc_sampler v) = FastGraph -> s_mini (mc_sampler v) = g -> Forall (fun p => length p = g) parts /\ concat parts = data).
Proof.
  intros X v data (Hs & EB & Hm) L B g parts. unfold B, g in *.
  pose proof (Nat.div_mod (s_batch (mc_sampler v)) (gen_mini (mc_generator v)) ltac:(lia)) as DM.
  split; [intros; apply part_length|]. split; [apply parts_concat|].
  assert (F : s_batch (mc_sampler v) / gen_mini (mc_generator v) * gen_mini (mc_generator v) <= length data -> Forall (fun p => length p = gen_mini (mc_generator v)) parts).
  { intros Q. apply Forall_forall. intros p Hp. apply in_map_iff in Hp. destruct Hp as (j & <- & Hj). apply in_seq in Hj. rewrite part_length. apply Nat.min_l. nia. }
  split; [intros E; apply F; lia|]. intros Ec Em. unfold rows_returned in L. rewrite Ec, Em in L. split; [apply F; lia|].
  unfold parts. rewrite parts_concat. apply firstn_all2. lia.
Qed.
Print Assumptions C87_parts.
Example C87_parts_ex : fits example_generator /\ length [1; 2; 3; 4; 5; 6] = rows_returned (mc_sampler example_generator) /\
  map (fun j => part 2 j [1; 2; 3; 4; 5; 6]) (seq 0 (10 / 2)) = [[1; 2]; [3; 4]; [5; 6]; []; []].
Proof. split; [apply example_generator_ok|]. split; reflexivity. Qed.

(** C87 in general is false of the parts: with mini batches of the generator smaller than those of the sampler, mini batches can be empty (Keras then takes the mean
    of no samples), or so uneven that one sample weighs as much as five others. *)
Theorem C87_full_parts_refuted : exists v u : monte_carlo,
  new_monte_carlo {| s_class := FastGraph; s_batch := 10; s_mini := 6 |} (Some 2) None = Ok v /\
  new_monte_carlo {| s_class := FastGraph; s_batch := 10; s_mini := 6 |} (Some 5) None = Ok u /\
  forall (n : nat) (H : list Z -> list Z -> C) (op : operator) (log_psi : list Z -> C) (draw : nat -> nat -> list (list Z)),
  operator_represents n H op -> configurations n draw ->
  (exists w outs, training_batches op (repeat (log_psi, draw) 5) v = Ok (w, outs) /\ map (@length _) outs = [2; 2; 2; 0; 0]) /\
  (exists w outs, training_batches op (repeat (log_psi, draw) 2) u = Ok (w, outs) /\ map (@length _) outs = [5; 1]).
Proof.
  set (u := {| mc_sampler := {| s_class := FastGraph; s_batch := 10; s_mini := 6 |}; mc_runs := 0;
     mc_generator := {| gen_batch_size := 10; gen_mini := 5; gen_freq := 2; gen_idx := 10; gen_data := []; gen_fetched := 0 |}; mc_evaluation := 5 |}).
  assert (Hu : fits u /\ due u) by (unfold fits, due, sized_sampler, u; cbn; lia).
  exists example_generator, u. split; [reflexivity|]. split; [reflexivity|]. intros n H op lp draw HO Hd. split.
  - destruct (cycle n H op lp draw (repeat (lp, draw) 4) example_generator HO Hd (proj1 example_generator_ok) (proj2 example_generator_ok) eq_refl)
      as (runs & rows & w & _ & L & _ & T & _). eexists w, _. split; [exact T|]. rewrite map_map.
    assert (L' : length (labelled n H lp (s_batch (mc_sampler example_generator)) rows) = 6) by (unfold labelled; cbv zeta; rewrite map_length, L; reflexivity).
    cbn [length repeat seq map]. rewrite !part_length, L'. reflexivity.
  - destruct (cycle n H op lp draw (repeat (lp, draw) 1) u HO Hd (proj1 Hu) (proj2 Hu) eq_refl)
      as (runs & rows & w & _ & L & _ & T & _). eexists w, _. split; [exact T|]. rewrite map_map.
    assert (L' : length (labelled n H lp (s_batch (mc_sampler u)) rows) = 6) by (unfold labelled; cbv zeta; rewrite map_length, L; reflexivity).
    cbn [length repeat seq map]. rewrite !part_length, L'. reflexivity.
Qed.
Print Assumptions C87_full_parts_refuted.

(** C87: the gradient of a batch that is served as a whole. With N independent rows and the nominal batch size B its mean is (N - 1) / (N B) times the gradient
    of the energy: missing rows shrink the step of the optimizer, they do not turn it. *)
Theorem C87_gradient : forall (n : nat) (H : list Z -> list Z -> C) (log_psi : R -> list Z -> C) (d : list Z -> C) (x : R) (s : sampler),
  sized_sampler s -> hermitian n H ->
  (forall c, In c (spin_configs n) -> Cderive (fun t => log_psi t c) x (d c)) ->
  let N := rows_returned s in
  let data := labelled n H (log_psi x) (s_batch s) in
  exists D G, derivable_pt_lim (fun t => Re (expectation n H (log_psi t))) x G /\
    (forall b, In b (all_batches n N) -> derivable_pt_lim (fun t => batch_loss (map snd (data b)) (map (log_psi t) (map fst (data b)))) x (D b)) /\
    average_over (independent n (log_psi x)) n N D = ((INR N - 1) / (INR N * INR (s_batch s)) * G)%R.
Proof.
  intros n H lp d x s Hs HH HD N data. destruct (rows_bounds s Hs) as (B1 & B2 & _). destruct Hs as [Hm Hb].
  apply (labelled_gradient n H lp d x); try assumption; unfold N; lia.
Qed.
Print Assumptions C87_gradient.
Example C87_gradient_ex : sized_sampler {| s_class := FastGraph; s_batch := 11; s_mini := 4 |} /\ hermitian 1 field_matrix /\
  (forall c, In c (spin_configs 1) -> Cderive (fun t => tilt t c) (/ 3)%R (RtoC (IZR (nth 0 c 0%Z)))).
Proof. split; [unfold sized_sampler; cbn; lia|]. split; [exact (ExactOperatorProofs.ising_matrix_hermitian 1 1 false [1])|]. intros s _. apply tilt_derive. Qed.

(** C87: the evaluation batch size does not matter, unless it is 0. *)
Theorem C87_evaluation : forall (X Y : Type) (model : X -> Y) (size : nat) (rows : list X),
  predict model size rows = if size =? 0 then Err ZeroDivisionError else Ok (map model rows).
Proof. intros X Y model size rows. destruct (Nat.eqb_spec size 0) as [->|N]; [reflexivity|]. apply predict_ok. lia. Qed.
Print Assumptions C87_evaluation.
Example C87_evaluation_ex : pieces 7 3 [1; 2; 3; 4; 5; 6; 7] = [[1; 2; 3]; [4; 5; 6]; [7]].
Proof. reflexivity. Qed.

(** C87: a new generator, and a generator with a new sampler, are at the beginning of a cycle; whatever was left of the old batch is dropped. The evaluation batch
    size of set_sampler is the old one. *)
Theorem C87_set_sampler : forall (v : monte_carlo) (s : sampler) (mini evaluation : option nat), sized_sampler s -> mini <> Some 0 ->
  (exists u, new_monte_carlo s mini evaluation = Ok u /\ mc_sampler u = s /\ fits u /\ due u /\
     gen_mini (mc_generator u) = match mini with None => s_batch s | Some m => min m (s_batch s) end /\
     mc_evaluation u = match evaluation with None => gen_mini (mc_generator u) | Some e => e end /\
     gen_freq (mc_generator u) = ceil_div (s_batch s) (gen_mini (mc_generator u))) /\
  (exists w, set_sampler v s mini = Ok (gen_freq (mc_generator w), w) /\ mc_sampler w = s /\ fits w /\ due w /\
     gen_mini (mc_generator w) = match mini with None => s_batch s | Some m => min m (s_batch s) end /\
     mc_evaluation w = mc_evaluation v /\ mc_runs w = mc_runs v /\
     gen_freq (mc_generator w) = ceil_div (s_batch s) (gen_mini (mc_generator w))).
Proof. intros v s mini evaluation Hs Hm. split; [now apply new_monte_carlo_ok|now apply set_sampler_ok]. Qed.
Print Assumptions C87_set_sampler.
Example C87_set_sampler_ex : sized_sampler {| s_class := SiteBySite; s_batch := 6; s_mini := 6 |} /\ Some 4 <> Some 0 /\ exists w,
  set_sampler example_generator {| s_class := SiteBySite; s_batch := 6; s_mini := 6 |} (Some 4) = Ok (2, w) /\ mc_evaluation w = 2.
Proof. split; [unfold sized_sampler; cbn; lia|]. split; [discriminate|]. eexists. split; reflexivity. Qed.

(** C87: the stages of the training scripts. Their assertion makes the training sampler return every row, and the mini batches of one update are exactly one batch.
    The validation batch comes in one piece. With the fast sampler it can be smaller than min(8 batch_size, 2^15), by less than the mini batch size; it is not
    if the mini batch size is at most the batch size and 8 batch_size at most 2^15. *)
Theorem C87_stages : forall (s : sampler) (mini : nat) (workers : option nat) (batch : value nat) (b val : nat),
  s_class s = SiteBySite \/ s_class s = FastGraph -> 0 < mini -> stage_sizes mini workers batch = Ok (b, val) -> 0 < b ->
  exists t v, stage_generators s mini b val = Ok (t, v) /\ fits t /\ due t /\ fits v /\ due v /\
    rows_returned (mc_sampler t) = b /\ gen_freq (mc_generator t) * gen_mini (mc_generator t) = b /\ gen_mini (mc_generator t) = min mini b /\
    s_batch (mc_sampler v) = val /\ gen_mini (mc_generator v) = val /\ gen_freq (mc_generator v) = 1 /\
    (s_class s = SiteBySite -> rows_returned (mc_sampler v) = val) /\
    (s_class s = FastGraph -> rows_returned (mc_sampler v) = val - val mod min mini val) /\
    (mini <= b -> 8 * b <= 2 ^ 15 -> rows_returned (mc_sampler v) = val).
Proof.
  intros s mini workers batch b val Hs Hm E Hb.
  destruct (stage_ok s mini workers batch b val Hs Hm E Hb) as (t & v & G & Ft & Dt & Fv & Dv & Ct & Cv & Bt & Rt & Qt & Gt & Bv & Mv & Gv & Qv).
  exists t, v. do 11 (split; [assumption|]). unfold rows_returned. rewrite Cv, Bv, Mv.
  split; [intros ->; reflexivity|]. split; [intros ->; reflexivity|]. intros M8 B8.
  assert (F : val = 8 * b /\ b mod mini = 0).
  { destruct (stage_sizes_inv mini workers batch b val Hm E) as [F [L|D]]; [lia|]. split; [|exact D]. rewrite F. now apply Nat.min_l. }
  destruct F as [Fv8 Fd]. assert (D : val mod min mini val = 0).
  { rewrite Nat.min_l by lia. rewrite Fv8, Nat.mul_mod, Fd by lia. rewrite Nat.mul_0_r. apply Nat.mod_0_l. lia. }
  rewrite D. destruct Hs as [-> | ->]; lia.
Qed.
Print Assumptions C87_stages.
Example C87_stages_ex : stage_sizes 128 (Some 4) (Scalar 1000) = Err AssertionError /\ stage_sizes 125 (Some 4) (Scalar 1000) = Ok (250, 2000) /\
  stage_sizes 300 None (Scalar 250) = Ok (250, 2000).
Proof. repeat split; reflexivity. Qed.

(** C87 for the validation batch is false: batches of 5000 in mini batches of 1000 are validated with 32000 samples instead of 32768. *)
Theorem C87_validation_refuted : exists t v,
  stage_sizes 1000 None (Scalar 5000) = Ok (5000, 2 ^ 15) /\
  stage_generators {| s_class := FastGraph; s_batch := 1000; s_mini := 1000 |} 1000 5000 (2 ^ 15) = Ok (t, v) /\
  rows_returned (mc_sampler v) + 768 = s_batch (mc_sampler v).
Proof.
  assert (E : stage_sizes 1000 None (Scalar 5000) = Ok (5000, 2 ^ 15)).
  { unfold stage_sizes. cbn [bind]. replace (5000 <? 1000) with false by (symmetry; apply Nat.ltb_ge; lia). replace (1000 =? 0) with false by reflexivity.
    replace (5000 mod 1000) with 0 by (apply (Nat.mod_unique 5000 1000 5 0); lia). cbn [Nat.eqb]. do 2 f_equal. }
  destruct (C87_stages {| s_class := FastGraph; s_batch := 1000; s_mini := 1000 |} 1000 None (Scalar 5000) 5000 (2 ^ 15) (or_intror eq_refl) ltac:(lia) E ltac:(lia))
    as (t & v & G & _ & _ & _ & _ & _ & _ & _ & Bv & _ & _ & _ & Rv & _).
  exists t, v. split; [exact E|]. split; [exact G|]. rewrite (Rv eq_refl), Bv.
  assert (P : 2 ^ 15 = 32 * 1000 + 768).
  { change 15 with (5 + 10). rewrite Nat.pow_add_r. replace (2 ^ 10) with 1024 by reflexivity. replace (2 ^ 5) with 32 by reflexivity. lia. }
  rewrite P. rewrite Nat.min_l by lia. replace ((32 * 1000 + 768) mod 1000) with 768 by (apply (Nat.mod_unique _ 1000 32 768); lia). lia.
Qed.
Print Assumptions C87_validation_refuted.
