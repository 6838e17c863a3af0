(** Vocabulary for derivatives with respect to weights. *)
From Coq Require Import List ZArith Arith Reals.
From Verif Require Import Base Cplx TensorModel MachinesModel ComplexModel GradientModel ExactSpec.
Import ListNotations.

(** The weights of a layer move along a curve; at [x] their derivatives are [V]. *)
Definition weights_derive (W : R -> weights R) (x : R) (V : weights R) : Prop :=
  (forall j, derivable_pt_lim (fun t => kernel_at (W t) j) x (kernel_at V j)) /\ forall j, derivable_pt_lim (fun t => bias_at (W t) j) x (bias_at V j).
Definition complex_weights_derive (W : R -> weights C) (x : R) (V : weights C) : Prop :=
  (forall j, Cderive (fun t => kernel_at (W t) j) x (kernel_at V j)) /\ forall j, Cderive (fun t => bias_at (W t) j) x (bias_at V j).

(** An activation function and the rule for its slope: no activation, the rectifier, or lncosh. *)
Definition real_activation (act : option (list R -> list R)) (dact : option (list (dual R) -> list (dual R))) : Prop :=
  (act = None /\ dact = None) \/ (act = Some relu_row /\ dact = Some relu_dual_row).
Definition complex_activation (act : option (list C -> list C)) (dact : option (list (dual C) -> list (dual C))) : Prop :=
  (act = None /\ dact = None) \/ (act = Some lncosh_row /\ dact = Some lncosh_dual_row) \/ (act = Some crelu_row /\ dact = Some crelu_dual_row).

(** Weights moved along a straight line. *)
Definition moved (w v : weights R) (t : R) : weights R :=
  {| kernel_at := fun j => (kernel_at w j + t * kernel_at v j)%R; bias_at := fun j => (bias_at w j + t * bias_at v j)%R |}.
Definition zero_bias (w : weights R) : Prop := forall j, bias_at w j = 0%R.
(** Only one bias moves. *)
Definition bias_direction (j : nat) : weights R := {| kernel_at := fun _ => 0%R; bias_at := fun k => if k =? j then 1%R else 0%R |}.
Definition no_direction : weights R := {| kernel_at := fun _ => 0%R; bias_at := fun _ => 0%R |}.
