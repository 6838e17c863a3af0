(** Property C73: which earlier sites the conditionals of the convolutional machines can depend on. *)
From Coq Require Import List ZArith Arith Bool Reals Lia Lra.
From Verif Require Import Base Cplx OrderingModel OrderingSpec TensorModel AutoregressiveModel AutoregressiveSpec MachinesModel MachinesSpec MachinesProofs
  ComplexModel ReceptiveSpec ReceptiveProofs Receptive2dProofs.
Import ListNotations.

(** The machine of examples/basic_autoregressive_exact_gradient.py:12-15 and of the two examples next to it: 16 sites, depth 7, everything else by default. *)
Definition basic_params : params_1d :=
  {| depth := 7; num_of_channels := 32; ksize := 3; use_dilation := true; add_skip_connections := false; max_dilation_rate := None |}.
(** examples/complex_ops_autoregressive_heisenberg_1d.py:29-36: 20 sites; depth 5 or 8, dilations up to 4. *)
Definition dilated_params (d : nat) : params_1d :=
  {| depth := d; num_of_channels := 32; ksize := 3; use_dilation := true; add_skip_connections := false; max_dilation_rate := Some 4 |}.
(** The two dimensional machines of the examples and experiments: kernel size 3. *)
Definition grid_params (d : nat) : params_2d := {| depth2 := d; channels2 := 32; ksize2 := 3 |}.

(** C73: what the real 1D machine says about site i is the same for any two configurations that agree on the [reach] sites before i. *)
Theorem C73_real_machine_window :
  forall (p : params_1d) (W : nat -> weights R) (act : option (list R -> list R)) (n i : nat) (s t : list Z),
  1 <= ksize p -> i < n -> (forall j, j < i <= j + reach p (depth p - 2) -> nth j s 0%Z = nth j t 0%Z) ->
  conditionals (simple_conv_net_1d p W act) [n] s i = conditionals (simple_conv_net_1d p W act) [n] t i.
Proof. exact simple_conv_net_1d_blind. Qed.
Print Assumptions C73_real_machine_window.
Example C73_real_window_ex : (** site 15 of the basic examples; the spins 0 to 3 differ *)
  let s := repeat 1%Z 16 in let t := repeat (-1)%Z 4 ++ repeat 1%Z 12 in
  1 <= ksize basic_params /\ 15 < 16 /\ (forall j, j < 15 <= j + reach basic_params (depth basic_params - 2) -> nth j s 0%Z = nth j t 0%Z) /\ s <> t.
Proof.
  cbv zeta. split; [cbn; lia|]. split; [lia|]. split; [|discriminate]. intros j. replace (reach basic_params (depth basic_params - 2)) with 11 by reflexivity. intros H.
  assert (Q : 4 <= j <= 14) by lia. do 15 (destruct j as [|j]; [lia || reflexivity|]). lia.
Qed.

(** C73: the window is exact: with suitable weights every site in it makes a difference to the conditional probability. This needs an activation
    that keeps the order of non negative numbers, like the default 'relu'. *)
Theorem C73_real_receptive_field :
  forall (p : params_1d) (act : option (list R -> list R)) (n i j : nat),
  match act with None => True | Some a => increasing_activation (fun x => x) a end ->
  1 <= ksize p -> 1 <= num_of_channels p -> i < n ->
  (exists W, influences (conditionals (simple_conv_net_1d p W act) [n]) n i j) <-> j < i <= j + reach p (depth p - 2).
Proof.
  intros p act n i j Hact Hk Hc Hi. split; [|now apply simple_conv_net_1d_sees]. intros (W & s & t & _ & _ & E & D).
  destruct (Nat.lt_ge_cases j i) as [L|L]; [destruct (Nat.le_gt_cases i (j + reach p (depth p - 2))) as [L'|L']; [lia|]|]; exfalso; apply D; f_equal;
    apply simple_conv_net_1d_blind; auto; intros k Hk'; apply E; lia.
Qed.
Print Assumptions C73_real_receptive_field.
Example C73_real_receptive_field_ex : increasing_activation (fun x => x) relu /\ 1 <= ksize (dilated_params 5) /\ 1 <= num_of_channels (dilated_params 5) /\
  reach (dilated_params 5) (depth (dilated_params 5) - 2) = 15.
Proof. split; [exact relu_increasing|]. split; [cbn; lia|]. split; [cbn; lia|reflexivity]. Qed.

(** C73: the complex 1D machine, which has one layer more. *)
Theorem C73_complex_machine_window :
  forall (p : params_1d) (W : nat -> weights C) (act : option (list C -> list C)) (n i : nat) (s t : list Z),
  1 <= ksize p -> i < n -> (forall j, j < i <= j + reach p (depth p - 1) -> nth j s 0%Z = nth j t 0%Z) ->
  conditionals (complex_conv_net_1d p W act) [n] s i = conditionals (complex_conv_net_1d p W act) [n] t i.
Proof. exact complex_conv_net_1d_blind. Qed.
Print Assumptions C73_complex_machine_window.
Example C73_complex_window_ex : (** without a maximal rate, depth 7: 13 sites *)
  let s := repeat 1%Z 20 in let t := repeat (-1)%Z 6 ++ repeat 1%Z 14 in
  1 <= ksize basic_params /\ 19 < 20 /\ s <> t /\ (forall j, j < 19 <= j + reach basic_params (depth basic_params - 1) -> nth j s 0%Z = nth j t 0%Z).
Proof.
  cbv zeta. split; [cbn; lia|]. split; [lia|]. split; [discriminate|]. intros j. replace (reach basic_params (depth basic_params - 1)) with 13 by reflexivity. intros H.
  assert (Q : 6 <= j <= 18) by lia. do 19 (destruct j as [|j]; [lia || reflexivity|]). lia.
Qed.
Theorem C73_complex_receptive_field :
  forall (p : params_1d) (act : option (list C -> list C)) (n i j : nat),
  match act with None => True | Some a => increasing_activation RtoC a end ->
  1 <= ksize p -> 1 <= num_of_channels p -> i < n ->
  (exists W, influences (conditionals (complex_conv_net_1d p W act) [n]) n i j) <-> j < i <= j + reach p (depth p - 1).
Proof.
  intros p act n i j Hact Hk Hc Hi. split; [|now apply complex_conv_net_1d_sees]. intros (W & s & t & _ & _ & E & D).
  destruct (Nat.lt_ge_cases j i) as [L|L]; [destruct (Nat.le_gt_cases i (j + reach p (depth p - 1))) as [L'|L']; [lia|]|]; exfalso; apply D; f_equal;
    apply complex_conv_net_1d_blind; auto; intros k Hk'; apply E; lia.
Qed.
Print Assumptions C73_complex_receptive_field.
Example C73_complex_ex : (** the default activation *)
  increasing_activation RtoC (map lncosh) /\ 1 <= ksize (dilated_params 5) /\ 1 <= num_of_channels (dilated_params 5) /\
  reach (dilated_params 5) (depth (dilated_params 5) - 1) = 23.
Proof. split; [exact lncosh_increasing|]. split; [cbn; lia|]. split; [cbn; lia|reflexivity]. Qed.

(** C73: the 2D machine with kernels of size 2 q + 1. *)
Theorem C73_grid_machine_window :
  forall (p : params_2d) (W : nat -> nat -> weights R) (w_last : weights R) (act : list R -> list R) (q h w x y : nat) (s t : list Z),
  ksize2 p = 2 * q + 1 -> x < h -> y < w ->
  (forall i j, i < h -> j < w -> sees_2d (2 * (depth2 p - 2) + 2) q x y i j -> nth (i * w + j) s 0%Z = nth (i * w + j) t 0%Z) ->
  conditionals (conv_net_2d p W w_last act) [h; w] s (x * w + y) = conditionals (conv_net_2d p W w_last act) [h; w] t (x * w + y).
Proof. exact conv_net_2d_blind. Qed.
Print Assumptions C73_grid_machine_window.
Example C73_grid_window_ex : (** depth 2: the site (9, 9) of a 10 x 10 grid ignores the first row *)
  let s := repeat 1%Z 100 in let t := repeat (-1)%Z 10 ++ repeat 1%Z 90 in
  ksize2 (grid_params 2) = 2 * 1 + 1 /\ s <> t /\
  forall i j, i < 10 -> j < 10 -> sees_2d (2 * (depth2 (grid_params 2) - 2) + 2) 1 9 9 i j -> nth (i * 10 + j) s 0%Z = nth (i * 10 + j) t 0%Z.
Proof.
  cbv zeta. split; [reflexivity|]. split; [discriminate|]. intros i j Hi Hj L. unfold sees_2d in L. cbn [grid_params depth2 Nat.sub Nat.mul Nat.add] in L.
  assert (1 <= i) by lia. destruct i as [|i]; [lia|]. rewrite app_nth2 by (rewrite repeat_length; lia). rewrite repeat_length.
  rewrite (nth_indep (repeat 1%Z 100) 0%Z 1%Z), (nth_indep (repeat 1%Z 90) 0%Z 1%Z) by (rewrite repeat_length; lia). now rewrite !nth_repeat.
Qed.
Theorem C73_grid_receptive_field :
  forall (p : params_2d) (act : list R -> list R) (q h w x y i j : nat),
  increasing_activation (fun x => x) act -> ksize2 p = 2 * q + 1 -> 2 <= channels2 p -> i < h -> j < w -> x < h -> y < w ->
  (exists W w_last, influences (conditionals (conv_net_2d p W w_last act) [h; w]) (h * w) (x * w + y) (i * w + j)) <->
  sees_2d (2 * (depth2 p - 2) + 2) q x y i j.
Proof.
  intros p act q h w x y i j Hact Hq Hc Hi Hj Hx Hy. split; [|now apply conv_net_2d_sees]. intros (W & w_last & s & t & _ & _ & E & D).
  assert (Dec : {sees_2d (2 * (depth2 p - 2) + 2) q x y i j} + {~ sees_2d (2 * (depth2 p - 2) + 2) q x y i j}).
  { unfold sees_2d. set (M := (2 * (depth2 p - 2) + 2) * q).
    destruct (Nat.eq_dec x i), (lt_dec j y), (le_dec y (j + 4 * M + 1)), (lt_dec i x), (le_dec x (i + 2 * M)), (le_dec j (y + M)),
      (le_dec x (i + 2 * M + 2 * q + 1)), (le_dec (y + q) (j + 4 * M + 1)); (left; lia) || (right; lia). }
  destruct Dec as [L|L]; [exact L|]. exfalso. apply D. f_equal. apply (conv_net_2d_blind p W w_last act q); auto. intros i' j' Hi' Hj' L'. apply E.
  intros Q. apply L. replace i with i'; [replace j with j'; [exact L'|]|].
  - pose proof (f_equal (fun z => z mod w) Q) as R. cbv beta in R. rewrite !(Nat.add_comm (_ * w)), !Nat.mod_add, !Nat.mod_small in R by lia. exact R.
  - pose proof (f_equal (fun z => z / w) Q) as R. cbv beta in R. rewrite !Nat.div_add_l, !Nat.div_small, !Nat.add_0_r in R by lia. exact R.
Qed.
Print Assumptions C73_grid_receptive_field.
Example C73_grid_ex : ksize2 (grid_params 5) = 2 * 1 + 1 /\ 2 <= channels2 (grid_params 5) /\ sees_2d (2 * (depth2 (grid_params 5) - 2) + 2) 1 4 3 2 9.
Proof. cbn. unfold sees_2d. lia. Qed.

(** C73: when does every site see all sites before it? *)
Theorem C73_real_machine_sees_all_iff :
  forall (p : params_1d) (act : option (list R -> list R)) (n : nat),
  match act with None => True | Some a => increasing_activation (fun x => x) a end -> 1 <= ksize p -> 1 <= num_of_channels p -> 2 <= n ->
  (forall i j, j < i < n -> exists W, influences (conditionals (simple_conv_net_1d p W act) [n]) n i j) <-> n - 1 <= reach p (depth p - 2).
Proof.
  intros p act n Hact Hk Hc Hn. split.
  - intros H. specialize (H (n - 1) 0 ltac:(lia)). apply C73_real_receptive_field in H; auto; lia.
  - intros L i j H. apply C73_real_receptive_field; auto; lia.
Qed.
Print Assumptions C73_real_machine_sees_all_iff.
Example C73_real_sees_all_ex : (** the example with 20 sites needs depth 8 *)
  20 - 1 <= reach (dilated_params 8) (depth (dilated_params 8) - 2) /\ ~ 20 - 1 <= reach (dilated_params 5) (depth (dilated_params 5) - 2).
Proof. replace (reach (dilated_params 8) _) with 39 by reflexivity. replace (reach (dilated_params 5) _) with 15 by reflexivity. lia. Qed.

Theorem C73_grid_machine_sees_all_iff :
  forall (p : params_2d) (act : list R -> list R) (q h w : nat),
  increasing_activation (fun x => x) act -> ksize2 p = 2 * q + 1 -> 2 <= channels2 p -> 2 <= h -> 1 <= w ->
  let D := 2 * (depth2 p - 2) + 2 in
  (forall x y i j, x < h -> y < w -> i < h -> j < w -> i < x \/ (i = x /\ j < y) ->
     exists W w_last, influences (conditionals (conv_net_2d p W w_last act) [h; w]) (h * w) (x * w + y) (i * w + j)) <->
  w - 1 <= D * q /\ h - 1 <= 2 * (D * q) + 2 * q + 1.
Proof.
  intros p act q h w Hact Hq Hc Hh Hw D.
  assert (G : forall x y i j, x < h -> y < w -> i < h -> j < w ->
    (exists W w_last, influences (conditionals (conv_net_2d p W w_last act) [h; w]) (h * w) (x * w + y) (i * w + j)) <-> sees_2d D q x y i j)
    by (intros; now apply C73_grid_receptive_field).
  assert (LD : 2 * q <= D * q) by (apply Nat.mul_le_mono_r; unfold D; lia).
  split.
  - intros H. assert (A := proj1 (G 1 0 0 (w - 1) ltac:(lia) ltac:(lia) ltac:(lia) ltac:(lia)) (H 1 0 0 (w - 1) ltac:(lia) ltac:(lia) ltac:(lia) ltac:(lia) ltac:(lia))).
    assert (B := proj1 (G (h - 1) 0 0 0 ltac:(lia) ltac:(lia) ltac:(lia) ltac:(lia)) (H (h - 1) 0 0 0 ltac:(lia) ltac:(lia) ltac:(lia) ltac:(lia) ltac:(lia))).
    unfold sees_2d in A, B. set (M := D * q) in *. clearbody M. lia.
  - intros [L1 L2] x y i j Hx Hy Hi Hj L. apply G; auto. unfold sees_2d. set (M := D * q) in *. clearbody M. lia.
Qed.
Print Assumptions C73_grid_machine_sees_all_iff.
Example C73_grid_sees_all_ex : (** the 10 x 10 examples with depth 5 miss the condition, the experiments with depth 20 and 10 meet it *)
  let D d := 2 * (depth2 (grid_params d) - 2) + 2 in
  ~ 10 - 1 <= D 5 * 1 /\ (10 - 1 <= D 20 * 1 /\ 10 - 1 <= 2 * (D 20 * 1) + 2 * 1 + 1) /\ (12 - 1 <= D 10 * 1 /\ 12 - 1 <= 2 * (D 10 * 1) + 2 * 1 + 1).
Proof. cbn. lia. Qed.

(** C73: [use_dilation=True] alone, the default, changes nothing: without [max_dilation_rate] the dilation rate stays 1 and the window grows by
    kernel_size - 1 per layer only. *)
Theorem C73_default_dilation_refuted :
  forall (p : params_1d) (layers : nat), max_dilation_rate p = None ->
  reach p layers = 1 + (ksize p - 1) * layers /\
  (forall (W : nat -> weights R) act x, simple_conv_net_1d p W act x =
     simple_conv_net_1d {| depth := depth p; num_of_channels := num_of_channels p; ksize := ksize p; use_dilation := false;
                           add_skip_connections := add_skip_connections p; max_dilation_rate := None |} W act x).
Proof.
  intros p layers H. split.
  - unfold reach. do 2 f_equal. unfold rate. rewrite H. replace (if use_dilation p then 1 else 1) with 1 by now destruct (use_dilation p).
    assert (G : forall l : list nat, fold_right Nat.add 0 (map (fun _ => 1) l) = length l) by (induction l as [|a l IH]; cbn [map fold_right length]; [reflexivity|]; now rewrite IH).
    now rewrite G, seq_length.
  - intros W act x. unfold simple_conv_net_1d, conv_net_1d. cbn [depth add_skip_connections].
    set (p' := {| depth := depth p; num_of_channels := num_of_channels p; ksize := ksize p; use_dilation := false;
                  add_skip_connections := add_skip_connections p; max_dilation_rate := None |}).
    assert (E : forall k i d (u : ktensor R), conv_stack real_numbers p W act (add_skip_connections p) k i d u = conv_stack real_numbers p' W act (add_skip_connections p) k i d u).
    { induction k as [|k IH]; intros i d u; cbn [conv_stack]; [reflexivity|]. change (ksize p') with (ksize p). change (num_of_channels p') with (num_of_channels p).
      destruct (causal_conv_1d _ _ _ _ _ _ _ _); cbn [bind]; [|reflexivity]. rewrite IH. f_equal. unfold next_dilation. rewrite H. now destruct (use_dilation p). }
    now rewrite E.
Qed.
Print Assumptions C73_default_dilation_refuted.
Example C73_default_dilation_ex : max_dilation_rate basic_params = None /\ use_dilation basic_params = true /\ reach basic_params (depth basic_params - 2) = 11 /\ 11 < 16 - 1.
Proof. repeat split. lia. Qed.

(** C73: with a maximal rate that is large enough for the number of layers the rate doubles in every layer. *)
Theorem C73_dilation_doubles :
  forall (p : params_1d) (m layers : nat), use_dilation p = true -> max_dilation_rate p = Some m -> layers <= Nat.log2_up m + 1 ->
  reach p layers = 1 + (ksize p - 1) * (2 ^ layers - 1).
Proof.
  intros p m layers Hu Hm L. unfold reach. do 2 f_equal. fold (total p layers). induction layers as [|l IH]; [reflexivity|]. rewrite total_S, IH by lia.
  unfold rate. rewrite Hu, Hm, Nat.min_l by lia. rewrite Nat.pow_succ_r'. assert (2 ^ l <> 0) by (apply Nat.pow_nonzero; lia). lia.
Qed.
Print Assumptions C73_dilation_doubles.
Example C73_dilation_doubles_ex : use_dilation (dilated_params 5) = true /\ max_dilation_rate (dilated_params 5) = Some 4 /\ 3 <= Nat.log2_up 4 + 1 /\ reach (dilated_params 5) 3 = 15.
Proof. repeat split. cbn. lia. Qed.

(** C73: two correlations that machines of the repository cannot represent, whatever the weights and the activation: in the basic examples (16 sites) the
    conditional of the last site ignores the first four; in the 10 x 10 examples with depth 5 the first site of every row ignores the last column. *)
Theorem C73_basic_examples_blind_refuted :
  forall (W : nat -> weights R) (act : option (list R -> list R)) (s t : list Z), (forall j, 4 <= j -> nth j s 0%Z = nth j t 0%Z) ->
  conditionals (simple_conv_net_1d basic_params W act) [16] s 15 = conditionals (simple_conv_net_1d basic_params W act) [16] t 15.
Proof.
  intros W act s t H. apply C73_real_machine_window; [cbn; lia|lia|]. intros j. replace (reach basic_params (depth basic_params - 2)) with 11 by reflexivity. intros L. apply H. lia.
Qed.
Print Assumptions C73_basic_examples_blind_refuted.
Example C73_basic_blind_ex : forall j, 4 <= j -> nth j (repeat 1%Z 4) 0%Z = nth j (repeat (-1)%Z 4) 0%Z.
Proof. intros j H. rewrite !nth_overflow by (rewrite repeat_length; lia). reflexivity. Qed.
Theorem C73_grid_examples_blind_refuted :
  forall (W : nat -> nat -> weights R) (w_last : weights R) (act : list R -> list R) (x : nat) (s t : list Z), x < 10 ->
  (forall i j, i < 10 -> j < 9 -> nth (i * 10 + j) s 0%Z = nth (i * 10 + j) t 0%Z) ->
  conditionals (conv_net_2d (grid_params 5) W w_last act) [10; 10] s (x * 10) = conditionals (conv_net_2d (grid_params 5) W w_last act) [10; 10] t (x * 10).
Proof.
  intros W w_last act x s t Hx H. replace (x * 10) with (x * 10 + 0) by lia. apply (C73_grid_machine_window _ _ _ _ 1); [reflexivity|exact Hx|lia|].
  intros i j Hi Hj L. apply H; [exact Hi|]. unfold sees_2d in L. cbn [grid_params depth2 Nat.sub Nat.mul Nat.add] in L. lia.
Qed.
Print Assumptions C73_grid_examples_blind_refuted.
Example C73_grid_blind_ex : let s := map (fun k => if k mod 10 =? 9 then (-1)%Z else 1%Z) (seq 0 100) in
  s <> repeat 1%Z 100 /\ forall i j, i < 10 -> j < 9 -> nth (i * 10 + j) s 0%Z = nth (i * 10 + j) (repeat 1%Z 100) 0%Z.
Proof.
  cbv zeta. split; [vm_compute; discriminate|]. intros i j Hi Hj.
  do 10 (destruct i as [|i]; [do 9 (destruct j as [|j]; [reflexivity|]); lia|]). lia.
Qed.
