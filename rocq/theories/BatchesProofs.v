(** Lemmas for C87. *)
From Coq Require Import List ZArith Reals Lra Lia Bool Arith.
From Verif Require Import Base Cplx AutoregressiveSpec ObservableModel ObservableSpec ExactModel ExactSpec ExactGradientProofs TrainingModel TrainingProofs MonteCarloModel
  MonteCarloSpec MonteCarloProofs StagesModel BatchesModel BatchesSpec.
Import ListNotations.

Lemma sampler_sizes_ok b mini : 0 < b -> mini <> Some 0 ->
  fst (sampler_sizes b mini) = b /\ snd (sampler_sizes b mini) = match mini with None => b | Some m => min m b end /\
  0 < snd (sampler_sizes b mini) <= b.
Proof.
  intros Hb Hm. unfold sampler_sizes. cbn [fst snd]. destruct mini as [m|].
  - assert (m <> 0) by congruence. destruct (Nat.ltb_spec b m); repeat split; lia.
  - rewrite Nat.ltb_irrefl. repeat split; lia.
Qed.

Lemma new_sampler_ok c b mini : 0 < b -> mini <> Some 0 ->
  (forall k, c = Metropolis k -> 0 < k /\ b mod k = 0) ->
  exists s, new_sampler c b mini = Ok s /\ s_class s = c /\ s_batch s = b /\ s_mini s = match mini with None => b | Some m => min m b end /\ sized_sampler s.
Proof.
  intros Hb Hm Hc. destruct (sampler_sizes_ok b mini Hb Hm) as (E1 & E2 & E3).
  exists {| s_class := c; s_batch := fst (sampler_sizes b mini); s_mini := snd (sampler_sizes b mini) |}.
  split; [|cbn [s_class s_batch s_mini]; unfold sized_sampler; cbn [s_batch s_mini]; rewrite E1; auto].
  unfold new_sampler. destruct c as [| | | |k]; try reflexivity. destruct (Hc k eq_refl) as [Hk Hd].
  destruct (Nat.eqb_spec k 0); [lia|]. now rewrite Hd.
Qed.

Lemma copy_ok s b mini : s_class s = SiteBySite \/ s_class s = FastGraph -> 0 < b -> mini <> Some 0 ->
  exists s', copy_with_new_batch_size s b mini = Ok s' /\ s_class s' = s_class s /\ s_batch s' = b /\
    s_mini s' = match mini with None => b | Some m => min m b end /\ sized_sampler s'.
Proof.
  intros Hs Hb Hm. destruct (sampler_sizes_ok b mini Hb Hm) as (E1 & E2 & E3).
  exists {| s_class := s_class s; s_batch := fst (sampler_sizes b mini); s_mini := snd (sampler_sizes b mini) |}.
  split; [|cbn [s_class s_batch s_mini]; unfold sized_sampler; cbn [s_batch s_mini]; rewrite E1; auto].
  unfold copy_with_new_batch_size. destruct Hs as [-> | ->]; reflexivity.
Qed.

Lemma rows_bounds s : sized_sampler s -> s_batch s < 2 * rows_returned s /\ rows_returned s <= s_batch s /\
  (rows_returned s = s_batch s <-> s_class s <> FastGraph \/ s_batch s mod s_mini s = 0) /\ s_batch s < rows_returned s + s_mini s.
Proof.
  intros [Hm Hb]. unfold rows_returned. pose proof (Nat.div_mod (s_batch s) (s_mini s) ltac:(lia)) as D.
  pose proof (Nat.mod_upper_bound (s_batch s) (s_mini s) ltac:(lia)) as M.
  assert (Q : 1 <= s_batch s / s_mini s) by (apply Nat.div_le_lower_bound; lia).
  destruct (s_class s); try (split; [lia|]; split; [lia|]; split; [split; [intros _; left; discriminate|reflexivity]|lia]).
  split; [nia|]. split; [lia|]. split; [|lia]. split; [right; lia|]. intros [C|C]; [congruence|lia].
Qed.

Lemma concat_constant {X} m (l : list (list X)) : (forall x, In x l -> length x = m) -> length (concat l) = length l * m.
Proof.
  induction l as [|x l IH]; intros E; [reflexivity|]. cbn [concat length]. rewrite app_length, IH by (intros; apply E; now right).
  rewrite (E x) by now left. reflexivity.
Qed.

(** What a run of the sampler returns. *)
Lemma sampler_rows_ok n s draw runs : sized_sampler s -> configurations n draw ->
  exists runs' rows, sampler_rows draw s runs = Ok (runs', rows) /\ runs < runs' /\ length rows = rows_returned s /\ rows <> [] /\
    forall r, In r rows -> In r (spin_configs n).
Proof.
  intros Hs Hd. destruct (rows_bounds s Hs) as (B1 & B2 & _ & _). destruct Hs as [Hm Hb].
  assert (P : 0 < rows_returned s) by lia.
  enough (G : exists runs' rows, sampler_rows draw s runs = Ok (runs', rows) /\ runs < runs' /\ length rows = rows_returned s /\
    forall r, In r rows -> In r (spin_configs n)).
  { destruct G as (k & rows & E & Hk & L & A). exists k, rows. repeat (split; [assumption|]). split; [|assumption].
    intros ->. cbn in L. lia. }
  assert (F : s_class s <> FastGraph -> exists runs' rows, Ok (runs + 1, draw runs (s_batch s)) = Ok (runs', rows) /\ runs < runs' /\
    length rows = s_batch s /\ forall r, In r rows -> In r (spin_configs n)).
  { intros _. destruct (Hd runs (s_batch s)) as [L A]. eexists _, _. split; [reflexivity|]. split; [lia|]. now split. }
  unfold sampler_rows, rows_returned. destruct (s_class s); try (apply F; discriminate). clear F.
  unfold fast_next. destruct (Nat.ltb_spec (s_mini s) (s_batch s)) as [Lt|Ge].
  - destruct (Nat.eqb_spec (s_mini s) 0); [lia|]. eexists _, _. split; [reflexivity|].
    assert (Q : 1 <= s_batch s / s_mini s) by (apply Nat.div_le_lower_bound; lia). split; [lia|]. split.
    + pose proof (Nat.div_mod (s_batch s) (s_mini s) ltac:(lia)) as D. replace (s_batch s - s_batch s mod s_mini s) with (s_batch s / s_mini s * s_mini s) by lia.
      rewrite (concat_constant (s_mini s)), map_length.
      { unfold range. now rewrite seq_length. }
      intros l Hl. apply in_map_iff in Hl. destruct Hl as (i & <- & _). apply Hd.
    + intros r Hr. apply in_concat in Hr. destruct Hr as (l & Hl & Hr). apply in_map_iff in Hl. destruct Hl as (i & <- & _).
      now apply (proj2 (Hd (runs + i) (s_mini s))).
  - assert (E : s_mini s = s_batch s) by lia. destruct (Hd runs (s_mini s)) as [L A]. eexists _, _. split; [reflexivity|]. split; [lia|]. split; [|exact A].
    rewrite L, E, Nat.mod_same by lia. lia.
Qed.

Lemma combine_map_self {A B} (f : A -> B) l : combine l (map f l) = map (fun a => (a, f a)) l.
Proof. induction l as [|a l IH]; [reflexivity|]. cbn [map combine]. now rewrite IH. Qed.

Lemma labelled_batch_ok n H op lp B rows : operator_represents n H op -> rows <> [] -> (forall r, In r rows -> In r (spin_configs n)) ->
  labelled_batch op lp B rows = Ok (labelled n H lp B rows).
Proof.
  intros HO NE A. unfold labelled_batch. rewrite (update_ok n H) by assumption. cbn [bind]. rewrite estimate_energy.
  cbn [estimate local]. unfold loss_coefficients. rewrite map_map, combine_map_self. reflexivity.
Qed.

(** * One cycle *)
Definition keeps (v w : monte_carlo) : Prop :=
  mc_sampler w = mc_sampler v /\ gen_batch_size (mc_generator w) = gen_batch_size (mc_generator v) /\ gen_mini (mc_generator w) = gen_mini (mc_generator v) /\
  gen_freq (mc_generator w) = gen_freq (mc_generator v) /\ mc_evaluation w = mc_evaluation v.

Lemma first_of_cycle n H op lp draw v : operator_represents n H op -> configurations n draw -> fits v -> due v ->
  exists runs rows w, sampler_rows draw (mc_sampler v) (mc_runs v) = Ok (runs, rows) /\
    length rows = rows_returned (mc_sampler v) /\ (forall r, In r rows -> In r (spin_configs n)) /\
    next_training_batch op lp draw v = Ok (w, part (gen_mini (mc_generator v)) 0 (labelled n H lp (gen_batch_size (mc_generator v)) rows)) /\
    keeps v w /\ mc_runs w = runs /\ gen_data (mc_generator w) = labelled n H lp (gen_batch_size (mc_generator v)) rows /\
    gen_idx (mc_generator w) = gen_mini (mc_generator v).
Proof.
  intros HO Hd (Hs & EB & Hm) Du. destruct (sampler_rows_ok n (mc_sampler v) draw (mc_runs v) Hs Hd) as (runs & rows & E & _ & L & NE & A).
  eexists runs, rows, _. split; [exact E|]. split; [exact L|]. split; [exact A|]. split.
  - unfold next_training_batch. red in Du. apply Nat.ltb_lt in Du. rewrite Du, E. cbn [bind fst snd]. rewrite (labelled_batch_ok n H) by assumption.
    cbn [bind fst snd]. unfold next_mini_batch. rewrite Du. cbn [Nat.add]. rewrite Nat.sub_diag. unfold slice. rewrite Nat.sub_0_r.
    change (skipn 0 ?l) with l. unfold part. cbn [Nat.mul]. reflexivity.
  - cbn [mc_sampler mc_runs mc_generator mc_evaluation gen_batch_size gen_mini gen_freq gen_data gen_idx]. repeat split.
Qed.

Lemma rest_of_cycle op lp draw v j : 0 < gen_mini (mc_generator v) -> gen_idx (mc_generator v) = j * gen_mini (mc_generator v) ->
  (j + 1) * gen_mini (mc_generator v) <= gen_batch_size (mc_generator v) ->
  exists w, next_training_batch op lp draw v = Ok (w, part (gen_mini (mc_generator v)) j (gen_data (mc_generator v))) /\
    keeps v w /\ mc_runs w = mc_runs v /\ gen_data (mc_generator w) = gen_data (mc_generator v) /\
    gen_idx (mc_generator w) = (j + 1) * gen_mini (mc_generator v).
Proof.
  intros Hm Hi Hj. assert (Du : (gen_batch_size (mc_generator v) <? gen_idx (mc_generator v) + gen_mini (mc_generator v)) = false) by (apply Nat.ltb_ge; lia).
  eexists. split.
  - unfold next_training_batch. rewrite Du. cbn [bind fst snd]. unfold next_mini_batch. rewrite Du. unfold slice, part.
    rewrite Nat.add_sub, Hi. replace (j * gen_mini (mc_generator v) + gen_mini (mc_generator v) - j * gen_mini (mc_generator v)) with (gen_mini (mc_generator v)) by lia.
    reflexivity.
  - cbn [mc_sampler mc_runs mc_generator mc_evaluation gen_batch_size gen_mini gen_freq gen_data gen_idx]. repeat split. lia.
Qed.

Lemma rest_of_cycle_all op now : forall v j, 0 < gen_mini (mc_generator v) -> gen_idx (mc_generator v) = j * gen_mini (mc_generator v) ->
  (j + length now) * gen_mini (mc_generator v) <= gen_batch_size (mc_generator v) ->
  exists w, training_batches op now v = Ok (w, map (fun i => part (gen_mini (mc_generator v)) i (gen_data (mc_generator v))) (seq j (length now))) /\
    keeps v w /\ mc_runs w = mc_runs v /\ gen_idx (mc_generator w) = (j + length now) * gen_mini (mc_generator v).
Proof.
  induction now as [|[lp draw] now IH]; intros v j Hm Hi Hj.
  - exists v. cbn [length] in *. repeat split. lia.
  - cbn [length] in *. destruct (rest_of_cycle op lp draw v j Hm Hi ltac:(nia)) as (w & E & (K1 & K2 & K3 & K4 & K5) & R & D & I).
    destruct (IH w (S j)) as (x & E' & (K1' & K2' & K3' & K4' & K5') & R' & I'); [rewrite K3; lia|rewrite K3; lia|rewrite K3, K2; lia|].
    exists x. cbn [training_batches]. rewrite E. cbn [bind fst snd]. rewrite E'. cbn [bind fst snd seq map]. rewrite K3, D.
    split; [reflexivity|]. unfold keeps. rewrite K1', K2', K3', K4', K5', K1, K2, K3, K4, K5, R', R, I', K3. repeat split. lia.
Qed.

Lemma cycle n H op lp draw rest v : operator_represents n H op -> configurations n draw -> fits v -> due v ->
  S (length rest) = s_batch (mc_sampler v) / gen_mini (mc_generator v) ->
  exists runs rows w, sampler_rows draw (mc_sampler v) (mc_runs v) = Ok (runs, rows) /\
    length rows = rows_returned (mc_sampler v) /\ (forall r, In r rows -> In r (spin_configs n)) /\
    training_batches op ((lp, draw) :: rest) v =
      Ok (w, map (fun j => part (gen_mini (mc_generator v)) j (labelled n H lp (s_batch (mc_sampler v)) rows)) (seq 0 (S (length rest)))) /\
    fits w /\ due w /\ keeps v w /\ mc_runs w = runs.
Proof.
  intros HO Hd Hv Du HL. destruct (first_of_cycle n H op lp draw v HO Hd Hv Du) as (runs & rows & w & E & L & A & N & (K1 & K2 & K3 & K4 & K5) & R & D & I).
  destruct Hv as (Hs & EB & Hm).
  pose proof (Nat.div_mod (s_batch (mc_sampler v)) (gen_mini (mc_generator v)) ltac:(lia)) as DM.
  pose proof (Nat.mod_upper_bound (s_batch (mc_sampler v)) (gen_mini (mc_generator v)) ltac:(lia)) as MB.
  destruct (rest_of_cycle_all op rest w 1) as (x & E' & (K1' & K2' & K3' & K4' & K5') & R' & I').
  { rewrite K3. lia. } { rewrite K3. lia. } { rewrite K3, K2, EB. nia. }
  exists runs, rows, x. split; [exact E|]. split; [exact L|]. split; [exact A|]. split.
  - cbn [training_batches]. rewrite N. cbn [bind fst snd]. rewrite E'. cbn [bind fst snd seq map]. rewrite K3, D, EB. reflexivity.
  - unfold fits, due, keeps, sized_sampler in *. rewrite K1', K2', K3', K4', K5', K1, K2, K3, K4, K5, R', R, I', K3, EB.
    repeat split; lia.
Qed.

(** * Parts *)
Lemma part_length {X} g j (l : list X) : length (part g j l) = min g (length l - j * g).
Proof. unfold part. now rewrite firstn_length, skipn_length. Qed.
Lemma firstn_add {X} a b (l : list X) : firstn (a + b) l = firstn a l ++ firstn b (skipn a l).
Proof. revert l. induction a as [|a IH]; intros l; [reflexivity|]. destruct l as [|x l]; cbn [Nat.add firstn skipn app]; [now rewrite firstn_nil|now rewrite IH]. Qed.
Lemma parts_concat {X} g q (l : list X) : concat (map (fun j => part g j l) (seq 0 q)) = firstn (q * g) l.
Proof.
  induction q as [|q IH]; [reflexivity|]. rewrite seq_S, map_app, concat_app, IH. cbn [map concat Nat.add]. rewrite app_nil_r.
  unfold part. replace (S q * g) with (q * g + g) by lia. now rewrite firstn_add.
Qed.

(** * The objects *)
Lemma new_monte_carlo_ok s mini evaluation : sized_sampler s -> mini <> Some 0 ->
  exists v, new_monte_carlo s mini evaluation = Ok v /\ mc_sampler v = s /\ fits v /\ due v /\
    gen_mini (mc_generator v) = match mini with None => s_batch s | Some m => min m (s_batch s) end /\
    mc_evaluation v = match evaluation with None => gen_mini (mc_generator v) | Some e => e end /\
    gen_freq (mc_generator v) = ceil_div (s_batch s) (gen_mini (mc_generator v)).
Proof.
  intros [Hm Hb] Hn. unfold new_monte_carlo, new_generator. destruct mini as [m|].
  - assert (m <> 0) by congruence. unfold set_batch_size. destruct (Nat.ltb_spec (s_batch s) m).
    + destruct (Nat.eqb_spec (s_batch s) 0); [lia|]. cbn [bind]. eexists. split; [reflexivity|].
      unfold fits, due, sized_sampler. cbn [mc_sampler mc_generator mc_evaluation gen_batch_size gen_mini gen_idx gen_freq]. repeat split; lia.
    + destruct (Nat.eqb_spec m 0); [lia|]. cbn [bind]. eexists. split; [reflexivity|].
      unfold fits, due, sized_sampler. cbn [mc_sampler mc_generator mc_evaluation gen_batch_size gen_mini gen_idx gen_freq]. repeat split; lia.
  - unfold set_batch_size. rewrite Nat.ltb_irrefl. destruct (Nat.eqb_spec (s_batch s) 0); [lia|]. cbn [bind]. eexists. split; [reflexivity|].
    unfold fits, due, sized_sampler. cbn [mc_sampler mc_generator mc_evaluation gen_batch_size gen_mini gen_idx gen_freq]. repeat split; lia.
Qed.

Lemma set_sampler_ok v s mini : sized_sampler s -> mini <> Some 0 ->
  exists w, set_sampler v s mini = Ok (gen_freq (mc_generator w), w) /\ mc_sampler w = s /\ fits w /\ due w /\
    gen_mini (mc_generator w) = match mini with None => s_batch s | Some m => min m (s_batch s) end /\
    mc_evaluation w = mc_evaluation v /\ mc_runs w = mc_runs v /\
    gen_freq (mc_generator w) = ceil_div (s_batch s) (gen_mini (mc_generator w)).
Proof.
  intros [Hm Hb] Hn. unfold set_sampler. destruct mini as [m|].
  - assert (m <> 0) by congruence. unfold set_batch_size. destruct (Nat.ltb_spec (s_batch s) m).
    + destruct (Nat.eqb_spec (s_batch s) 0); [lia|]. cbn [bind]. lazymatch goal with |- exists w, Ok (_, ?x) = _ /\ _ => exists x end. split; [reflexivity|].
      unfold fits, due, sized_sampler. cbn [mc_sampler mc_generator mc_evaluation mc_runs gen_batch_size gen_mini gen_idx gen_freq]. repeat split; lia.
    + destruct (Nat.eqb_spec m 0); [lia|]. cbn [bind]. lazymatch goal with |- exists w, Ok (_, ?x) = _ /\ _ => exists x end. split; [reflexivity|].
      unfold fits, due, sized_sampler. cbn [mc_sampler mc_generator mc_evaluation mc_runs gen_batch_size gen_mini gen_idx gen_freq]. repeat split; lia.
  - unfold set_batch_size. rewrite Nat.ltb_irrefl. destruct (Nat.eqb_spec (s_batch s) 0); [lia|]. cbn [bind]. lazymatch goal with |- exists w, Ok (_, ?x) = _ /\ _ => exists x end. split; [reflexivity|].
    unfold fits, due, sized_sampler. cbn [mc_sampler mc_generator mc_evaluation mc_runs gen_batch_size gen_mini gen_idx gen_freq]. repeat split; lia.
Qed.

(** * Evaluation in pieces *)
Lemma pieces_concat {X} size : 0 < size -> forall fuel (rows : list X), length rows <= fuel -> concat (pieces fuel size rows) = rows.
Proof.
  intros Hs. induction fuel as [|k IH]; intros rows L; [destruct rows; [reflexivity|cbn in L; lia]|].
  destruct rows as [|r rows]; [reflexivity|]. cbn [pieces concat]. rewrite IH; [apply firstn_skipn|]. rewrite skipn_length. cbn [length] in *. lia.
Qed.
Lemma predict_ok {X Y} (model : X -> Y) size rows : 0 < size -> predict model size rows = Ok (map model rows).
Proof.
  intros Hs. unfold predict. destruct (Nat.eqb_spec size 0); [lia|]. f_equal. rewrite <- concat_map. now rewrite pieces_concat by lia.
Qed.

(** * The gradient *)
Local Open Scope R_scope.
Lemma labelled_targets n H lp B rows : map snd (labelled n H lp B rows) =
  map (fun s => Cscale (/ INR B) (Cconj (local_energy n H lp s - spec_energy n H lp rows)%C)) rows.
Proof. unfold labelled. cbv zeta. rewrite map_map. reflexivity. Qed.
Lemma labelled_rows n H lp B rows : map fst (labelled n H lp B rows) = rows.
Proof. unfold labelled. cbv zeta. rewrite map_map. cbn [fst]. apply map_id. Qed.

Lemma labelled_gradient n H (lp : R -> list Z -> C) d x B N : (0 < B)%nat -> (0 < N)%nat -> hermitian n H ->
  (forall s, In s (spin_configs n) -> Cderive (fun t => lp t s) x (d s)) ->
  exists D G, derivable_pt_lim (fun t => Re (expectation n H (lp t))) x G /\
    (forall b, In b (all_batches n N) ->
       derivable_pt_lim (fun t => batch_loss (map snd (labelled n H (lp x) B b)) (map (lp t) (map fst (labelled n H (lp x) B b)))) x (D b)) /\
    average_over (independent n (lp x)) n N D = (INR N - 1) / (INR N * INR B) * G.
Proof.
  intros HB HN HH HD. assert (NB : INR B <> 0) by (apply not_0_INR; lia). assert (NN : INR N <> 0) by (apply not_0_INR; lia).
  exists (fun b => / INR B / INR N * covariance_sum n H (lp x) d b). eexists. split; [exact (energy_gradient n H lp d x HH HD)|]. split.
  - intros b Hb. apply all_batches_in in Hb. destruct Hb as [L A]. rewrite labelled_targets, labelled_rows.
    apply (limit_ext (fun t => / INR B / INR N * Rsum (fun s => 2 * Re (Cconj (local_energy n H (lp x) s - spec_energy n H (lp x) b) * lp t s)%C) b)).
    + intros t. rewrite loss_of_targets, L by lia. reflexivity.
    + exact (sum_derivative (fun e => Cconj (e - spec_energy n H (lp x) b)%C) (local_energy n H (lp x)) n lp d x _ b A HD).
  - rewrite avg_scal, covariance_average by assumption. field. now split.
Qed.


(** * Stages *)
Local Close Scope R_scope.
Lemma ceil_div_divides a b : 0 < b -> a mod b = 0 -> ceil_div a b * b = a.
Proof.
  intros Hb Hd. pose proof (Nat.div_mod a b ltac:(lia)) as D. unfold ceil_div.
  replace ((a + b - 1) / b) with (a / b); [lia|]. apply (Nat.div_unique _ _ _ (b - 1)); lia.
Qed.

Lemma stage_sizes_inv mini workers batch b val : 0 < mini -> stage_sizes mini workers batch = Ok (b, val) ->
  val = min (8 * b) (2 ^ 15) /\ (b < mini \/ b mod mini = 0).
Proof.
  intros Hm E. unfold stage_sizes in E. destruct batch as [x|x]; [|discriminate].
    destruct workers as [[|w]|]; cbn [bind Nat.eqb] in E; try discriminate;
      match type of E with context [?y <? mini] => destruct (Nat.ltb_spec y mini) as [L|G]; [injection E as <- <-; split; [f_equal; lia|now left]|] end;
      destruct (Nat.eqb_spec mini 0); try lia;
      match type of E with context [?y mod mini =? 0] => destruct (Nat.eqb_spec (y mod mini) 0) as [Z|Z]; [|discriminate] end;
      injection E as <- <-; (split; [f_equal; lia|now right]).
Qed.
Lemma stage_ok s mini workers batch b val : s_class s = SiteBySite \/ s_class s = FastGraph -> 0 < mini -> stage_sizes mini workers batch = Ok (b, val) -> 0 < b ->
  exists t v, stage_generators s mini b val = Ok (t, v) /\ fits t /\ due t /\ fits v /\ due v /\
    s_class (mc_sampler t) = s_class s /\ s_class (mc_sampler v) = s_class s /\
    s_batch (mc_sampler t) = b /\ rows_returned (mc_sampler t) = b /\ gen_freq (mc_generator t) * gen_mini (mc_generator t) = b /\
    gen_mini (mc_generator t) = min mini b /\
    s_batch (mc_sampler v) = val /\ s_mini (mc_sampler v) = min mini val /\ gen_mini (mc_generator v) = val /\ gen_freq (mc_generator v) = 1.
Proof.
  intros Hs Hm E Hb.
  destruct (stage_sizes_inv mini workers batch b val Hm E) as [Fv Fb].
  assert (Hv : 0 < val). { rewrite Fv. apply Nat.min_glb_lt; [lia|]. now apply Nat.neq_0_lt_0, Nat.pow_nonzero. }
  clear Fv. assert (SM : Some mini <> Some 0) by (intros X; injection X; lia).
  destruct (copy_ok s val (Some mini) Hs Hv SM) as (vs & Ev & Cv & Bv & Mv & Sv).
  destruct (copy_ok s b (Some mini) Hs Hb SM) as (ts & Et & Ct & Bt & Mt & St).
  destruct (new_monte_carlo_ok ts (Some mini) None St SM) as (t & Et' & Ts & Ft & Dt & Gt & _ & Qt).
  destruct (new_monte_carlo_ok vs None (Some mini) Sv ltac:(discriminate)) as (v & Ev' & Vs & Fv' & Dv & Gv & _ & Qv).
  exists t, v. split. { unfold stage_generators. rewrite Ev. cbn [bind]. rewrite Et. cbn [bind]. rewrite Et'. cbn [bind]. rewrite Ev'. reflexivity. }
  rewrite Ts, Vs, Cv, Ct, Bv, Bt, Mv, Gt, Gv, Bt, Bv. rewrite Qt, Qv, Gt, Gv, Bt, Bv.
  assert (DV : b mod min mini b = 0).
  { destruct Fb as [L|Z]; [rewrite Nat.min_r by lia; apply Nat.mod_same; lia|].
    assert (mini <= b). { destruct (Nat.le_gt_cases mini b) as [|G]; [assumption|]. rewrite Nat.mod_small in Z by lia. lia. }
    now rewrite Nat.min_l. }
  split; [exact Ft|]. split; [exact Dt|]. split; [exact Fv'|]. split; [exact Dv|]. do 3 (split; [reflexivity|]). split.
  { unfold rows_returned. destruct (s_class ts); rewrite ?Mt, ?Bt, ?DV; lia. }
  split. { apply ceil_div_divides; [lia|exact DV]. }
  do 4 (split; [reflexivity|]). unfold ceil_div. symmetry. apply (Nat.div_unique _ _ _ (val - 1)); lia.
Qed.
