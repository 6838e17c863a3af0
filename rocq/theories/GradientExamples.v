(** Small machines for the examples of C71. *)
From Coq Require Import List ZArith Arith Bool Reals Lra Lia.
From Verif Require Import Base Cplx OrderingModel OrderingSpec TensorModel AutoregressiveModel AutoregressiveSpec MachinesModel MachinesSpec ComplexModel GradientModel
  GradientSpec ExactSpec ExactGradientProofs GradientProofs GradientLossProofs.
Import ListNotations.
Local Open Scope nat_scope.
Definition ex_params : params_1d := {| depth := 3; num_of_channels := 1; ksize := 2; use_dilation := false; add_skip_connections := false; max_dilation_rate := None |}.
Definition ex_places (l : nat) : layout := {| kernel_place := fun j => if l =? 0 then j else 2; bias_place := fun _ => 2 |}.
Lemma ex_smooth i s : i < 3 -> In s (spin_configs 2) -> all_smooth (real_1d_out ex_params (Some relu_dual_row) ex_places 2 [3; 5; 1]%R (unit_vector 3 i) s) [2] (length s) = true.
Proof.
  intros Hi Hs. assert (E : i = 0 \/ i = 1 \/ i = 2) by lia. cbn in Hs.
  destruct E as [E|[E|E]]; subst i; repeat (destruct Hs as [<-|Hs]; [|]); try contradiction;
    match goal with |- ?a = _ => let b := eval cbv -[Rplus Rmult Rmax IZR Rlt_dec Req_EM_T] in a in change (b = true) end;
    repeat match goal with |- context [Req_EM_T ?a 0] => destruct (Req_EM_T a 0); [exfalso; lra|] end; reflexivity.
Qed.

Definition complex_ex_params : params_1d := {| depth := 2; num_of_channels := 1; ksize := 1; use_dilation := false; add_skip_connections := false; max_dilation_rate := None |}.
Definition complex_ex_re (l : nat) : layout := {| kernel_place := fun _ => 0; bias_place := fun _ => 0 |}.
Definition complex_ex_im (l : nat) : layout := {| kernel_place := fun _ => 1; bias_place := fun _ => 1 |}.
Lemma twice_cosh_real z : Im z = 0%R -> (0 < Re (twice_cosh z))%R.
Proof.
  destruct z as [a b]. unfold twice_cosh, Cexp, Cplus, Copp, Re, Im. cbn [fst snd]. intros ->. rewrite Ropp_0, cos_0.
  pose proof (exp_pos a). pose proof (exp_pos (- a)). lra.
Qed.
Lemma complex_ex_smooth i s : i < 2 -> In s (spin_configs 2) ->
  all_smooth (complex_1d_out complex_ex_params (Some lncosh_dual_row) complex_ex_re complex_ex_im 2 [/ 2; 0]%R (unit_vector 2 i) s) [2] (length s) = true.
Proof.
  intros Hi Hs. assert (E : i = 0 \/ i = 1) by lia. cbn in Hs.
  destruct E as [E|E]; subst i; repeat (destruct Hs as [<-|Hs]; [|]); try contradiction;
    match goal with |- ?a = _ => let b := eval cbv -[Rplus Rmult IZR Rinv Rlt_dec Req_EM_T lncosh twice_cosh complex_tanh Cplus Cmult C0 Re Im RtoC] in a in change (b = true) end;
    repeat match goal with |- context [Rlt_dec 0 (Re (twice_cosh ?a))] => destruct (Rlt_dec 0 (Re (twice_cosh a)));
      [|exfalso; match goal with K : ~ _ |- _ => apply K end; apply twice_cosh_real; unfold Cplus, Cmult, C0, RtoC, Re, Im; cbn [fst snd]; ring] end; reflexivity.
Qed.

Lemma corner_closed {T} (N : numbers T) (W : nat -> nat -> weights T) (wl : weights T) (act : T -> T) (of_Z : Z -> T) (z0 : Z) (Q P : T -> Prop) :
  Q (zero N) -> (forall a b, Q a -> Q b -> Q (plus N a b)) -> (forall a b, Q a -> Q b -> Q (times N a b)) -> (forall a, Q a -> Q (act a)) -> (forall z, Q (of_Z z)) ->
  (forall b j k, Q (kernel_at (W b j) k)) -> (forall b j k, Q (bias_at (W b j) k)) ->
  P (zero N) -> (forall a b, P a -> P b -> P (plus N a b)) -> (forall a b, Q a -> P b -> P (times N a b)) -> (forall k, P (kernel_at wl k)) -> (forall k, P (bias_at wl k)) ->
  Forall P (first_features (conv_net_2d_features N corner_params W wl (map act) (expand_and_cast of_Z (input_array [1; 1] [z0])))).
Proof.
  intros Z0 PQ TQ AQ IQ KQ BQ ZP PP TP KP BP.
  match goal with |- Forall _ ?a => let b := eval cbv -[kernel_at bias_at plus times zero] in a in change a with b end.
  repeat apply Forall_cons; [| | | |apply Forall_nil]; repeat first [apply PP|apply TP|apply KP|apply BP|apply ZP|apply AQ|apply PQ|apply TQ|apply KQ|apply BQ|apply IQ|apply Z0].
Qed.

Lemma smooth_row (r : res (ktensor (dual R))) : Forall (fun a => smooth a = true) (first_features r) -> all_smooth r [1; 1] 1 = true.
Proof.
  unfold all_smooth, first_features. destruct r as [y|e]; [|reflexivity]. intros F. change (range 1) with [0]. cbn [forallb]. rewrite andb_true_r.
  apply forallb_forall. now rewrite <- Forall_forall.
Qed.
Definition flat (V : MachinesModel.weights R) : Prop := (forall k, kernel_at V k = 0%R) /\ forall k, bias_at V k = 0%R.
Lemma last_direction_row W V0 wl V z0 : (forall b j, flat (V0 b j)) -> Forall (fun a => smooth a = true)
  (first_features (conv_net_2d_features (dual_numbers real_numbers) corner_params (fun b j => weights_with_slope (W b j) (V0 b j))
    (weights_with_slope wl V) (map relu_dual) (expand_and_cast (fun z => constant real_numbers (IZR z)) (input_array [1; 1] [z0])))).
Proof.
  intros F0. apply (corner_closed (dual_numbers real_numbers) (fun b j => weights_with_slope (W b j) (V0 b j)) (weights_with_slope wl V) relu_dual
    (fun z => constant real_numbers (IZR z)) z0 (fun a => smooth a = true /\ slope a = 0%R) (fun a => smooth a = true)).
  - split; reflexivity.
  - intros a b [A1 A2] [B1 B2]. cbn [dual_numbers plus real_numbers smooth slope]. rewrite A1, A2, B1, B2. split; [reflexivity|ring].
  - intros a b [A1 A2] [B1 B2]. cbn [dual_numbers times plus real_numbers smooth slope]. rewrite A1, A2, B1, B2. split; [reflexivity|ring].
  - intros a [A1 A2]. unfold relu_dual. cbn [smooth slope]. rewrite A1, A2. split; [|destruct (Rlt_dec 0 (value a)); reflexivity].
    destruct (Req_EM_T (value a) 0); [|reflexivity]. destruct (Req_EM_T 0 0); [reflexivity|contradiction].
  - split; reflexivity.
  - intros b j k. split; [reflexivity|]. apply (F0 b j).
  - intros b j k. split; [reflexivity|]. apply (F0 b j).
  - reflexivity.
  - intros a b A B. cbn [dual_numbers plus smooth]. now rewrite A, B.
  - intros a b [A _] B. cbn [dual_numbers times smooth]. now rewrite A, B.
  - reflexivity.
  - reflexivity.
Qed.
Lemma last_direction_smooth W V0 wl V z0 : (forall b j, flat (V0 b j)) -> all_smooth (conv_net_2d_features (dual_numbers real_numbers) corner_params (fun b j => weights_with_slope (W b j) (V0 b j))
    (weights_with_slope wl V) relu_dual_row (constant_input real_numbers IZR [1; 1] [z0])) [1; 1] 1 = true.
Proof. intros F0. exact (smooth_row _ (last_direction_row W V0 wl V z0 F0)). Qed.

(** A machine of one site whose only weight is the bias of the last convolution. *)
Definition last_ex_places (b j : nat) : layout := {| kernel_place := fun _ => 1; bias_place := fun _ => 1 |}.
Definition last_ex : layout := {| kernel_place := fun _ => 1; bias_place := fun k => k |}.
Lemma last_ex_smooth i s : i < 1 -> In s (spin_configs (1 * 1)) ->
  all_smooth (real_2d_out corner_params last_ex_places last_ex 1 1 [2]%R (unit_vector 1 i) s) [1; 1] (length s) = true.
Proof.
  intros Hi Hs. assert (F : flat (layer_weights {| kernel_place := fun _ => 1; bias_place := fun _ => 1 |} (unit_vector 1 i))) by (split; reflexivity).
  assert (E : exists z0, s = [z0]) by (cbn in Hs; destruct Hs as [<-|[<-|[]]]; eexists; reflexivity). destruct E as (z0 & ->).
  exact (last_direction_smooth (fun b j => layer_weights (last_ex_places b j) [2]%R) (fun b j => layer_weights (last_ex_places b j) (unit_vector 1 i))
    (layer_weights last_ex [2]%R) (layer_weights last_ex (unit_vector 1 i)) z0 (fun b j => F)).
Qed.
