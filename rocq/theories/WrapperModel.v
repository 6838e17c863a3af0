(** Model of the constructors of machines/abstract_machine.py and of the constructors of the autoregressive machines: which
    attributes exist when, which keyword arguments reach which class, and the symbolic tensor each attribute holds. *)
From Coq Require Import String List ZArith Bool Reals.
From Verif Require Import Base Cplx AutoregressiveModel EqualSpinsModel GraphModel.
Import ListNotations.

(** Symbolic Keras tensors: the layers a constructor applies. [KNetwork] is the output of the network a machine builds
    itself; [KModelOutput] the output of a given Keras model; [KOrdered], [KOneDim] and [KReordered] the three stages of
    SimpleCustomOrderingAutoregressive. *)
Inductive ktensor :=
| KInput
| KNetwork (input : ktensor)
| KModelOutput
| KOrdered (input : ktensor)
| KReordered (one_dim : ktensor)
| KEqualUpDownSpins (x input : ktensor)
| KNormalizeInLogSpace (norm_type : nat) (x : ktensor)
| KTwiceReal (x : ktensor)
| KPlusMinusOneToOneHot (x : ktensor)
| KToComplex64 (x : ktensor)
| KCombine (x one_hot : ktensor).

(** The attributes of a machine object; an attribute that was not set raises AttributeError when it is read. *)
Record machine := {
  keras_input_layer : option ktensor; use_pfor : option bool; predictions_ : option ktensor;
  conditional_log_wave_function_ : option ktensor; conditional_log_probs_ : option ktensor;
  unnormalized_ : option ktensor; conditional_wave_functions_model : option ktensor
}.
Definition new_object : machine :=
  {| keras_input_layer := None; use_pfor := None; predictions_ := None; conditional_log_wave_function_ := None;
     conditional_log_probs_ := None; unnormalized_ := None; conditional_wave_functions_model := None |}.
Definition read {A} (attribute : option A) : res A := match attribute with Some a => Ok a | None => Err AttributeError end.

Definition set_base (o : machine) (input : ktensor) (pfor : bool) : machine :=
  {| keras_input_layer := Some input; use_pfor := Some pfor; predictions_ := predictions_ o;
     conditional_log_wave_function_ := conditional_log_wave_function_ o; conditional_log_probs_ := conditional_log_probs_ o;
     unnormalized_ := unnormalized_ o; conditional_wave_functions_model := conditional_wave_functions_model o |}.
Definition set_predictions (o : machine) (x : ktensor) : machine :=
  {| keras_input_layer := keras_input_layer o; use_pfor := use_pfor o; predictions_ := Some x;
     conditional_log_wave_function_ := conditional_log_wave_function_ o; conditional_log_probs_ := conditional_log_probs_ o;
     unnormalized_ := unnormalized_ o; conditional_wave_functions_model := conditional_wave_functions_model o |}.
Definition set_conditionals (o : machine) (x probs : ktensor) : machine :=
  {| keras_input_layer := keras_input_layer o; use_pfor := use_pfor o; predictions_ := predictions_ o;
     conditional_log_wave_function_ := Some x; conditional_log_probs_ := Some probs;
     unnormalized_ := unnormalized_ o; conditional_wave_functions_model := conditional_wave_functions_model o |}.
Definition set_unnormalized (o : machine) (x : ktensor) : machine :=
  {| keras_input_layer := keras_input_layer o; use_pfor := use_pfor o; predictions_ := predictions_ o;
     conditional_log_wave_function_ := conditional_log_wave_function_ o; conditional_log_probs_ := conditional_log_probs_ o;
     unnormalized_ := Some x; conditional_wave_functions_model := conditional_wave_functions_model o |}.
Definition set_model (o : machine) (x : ktensor) : machine :=
  {| keras_input_layer := keras_input_layer o; use_pfor := use_pfor o; predictions_ := predictions_ o;
     conditional_log_wave_function_ := conditional_log_wave_function_ o; conditional_log_probs_ := conditional_log_probs_ o;
     unnormalized_ := unnormalized_ o; conditional_wave_functions_model := Some x |}.

(** The property [unnormalized_conditional_log_wave_function] of a class: the attribute it returns. The property
    [conditional_log_wave_function] of AutoNormalizedAutoregressiveMachine and its subclasses is [read_conditional]. *)
Inductive class := NetworkMachine | AutoregressiveWrapper.
Definition read_unnormalized (c : class) (o : machine) : res ktensor :=
  match c with
  | NetworkMachine => read (unnormalized_ o)
  | AutoregressiveWrapper => do _ <- read (conditional_wave_functions_model o); Ok KModelOutput
  end.
Definition read_conditional (o : machine) : res ktensor := read (conditional_log_wave_function_ o).

(** Keyword arguments; python does not allow a name twice. All values that matter here are booleans. *)
Definition kwargs := list (string * bool).
Fixpoint argument (name : string) (k : kwargs) : option bool :=
  match k with [] => None | (n, v) :: t => if String.eqb n name then Some v else argument name t end.
Definition without (name : string) (k : kwargs) : kwargs := filter (fun a => negb (String.eqb (fst a) name)) k.
Definition default (d : bool) (o : option bool) : bool := match o with Some b => b | None => d end.

(** abstract_machine.py:13-17 Machine.__init__(keras_input_layer, use_pfor=False): any other keyword is a TypeError. *)
Definition machine_init (o : machine) (input : ktensor) (k : kwargs) : res machine :=
  match without "use_pfor" k with
  | [] => Ok (set_base o input (default false (argument "use_pfor" k)))
  | _ => Err TypeError
  end.

(** abstract_machine.py:31-38 AutoregressiveMachine.__init__. *)
Definition autoregressive_machine_init (o : machine) (input : ktensor) (k : kwargs) : res machine :=
  do o <- machine_init o input k;
  let one_hot_input := KToComplex64 (KPlusMinusOneToOneHot input) in
  do x <- read_conditional o;
  Ok (set_predictions o (KCombine x one_hot_input)).

(** abstract_machine.py:49-58 AutoNormalizedAutoregressiveMachine.__init__(keras_input_layer, equal_up_down_spins=False). *)
Definition auto_normalized_init (c : class) (o : machine) (input : ktensor) (k : kwargs) : res machine :=
  let equal_up_down_spins := default false (argument "equal_up_down_spins" k) in
  do x <- read_unnormalized c o;
  let x := if equal_up_down_spins then KEqualUpDownSpins x input else x in
  let cond := KNormalizeInLogSpace 2 x in
  autoregressive_machine_init (set_conditionals o cond (KTwiceReal cond)) input (without "equal_up_down_spins" k).

(** simple_conv_net_autoregressive_1D.py:26-39, complex_values_simple_conv_net_autoregressive_1D.py:24-37,
    conv_net_autoregressive_2D.py:11-22: the network is built first, the keyword arguments the class does not take itself
    go on. *)
Definition network_machine (input : ktensor) (k : kwargs) : res machine :=
  auto_normalized_init NetworkMachine (set_unnormalized new_object (KNetwork input)) input k.

(** simple_custom_autoregressive_ordering.py:13-22: the keyword arguments go to the one dimensional machine inside; line 22
    passes none on. The inner machine's graph only has to be built (its conditionals get a two dimensional input, tensorflow
    broadcasts the shapes). *)
Definition custom_ordering_machine (input : ktensor) (k : kwargs) : res machine :=
  do one_dim_model <- network_machine (KOrdered input) k;
  do x <- read (unnormalized_ one_dim_model);
  auto_normalized_init NetworkMachine (set_unnormalized new_object (KReordered x)) input [].

(** abstract_machine.py:74-77 AutoregressiveWrapper.__init__: [super(AutoNormalizedAutoregressiveMachine, self)] is the
    constructor of AutoregressiveMachine. *)
Definition autoregressive_wrapper (k : kwargs) : res machine :=
  do o <- autoregressive_machine_init new_object KInput k;
  Ok (set_model o KModelOutput).

(** abstract_machine.py:84-86. *)
Definition keras_conditional_wave_functions_to_wave_function {V} (model : kmodel V) : res machine :=
  do _ <- assert_valid_probabilistic_model model;
  autoregressive_wrapper [].

(** * What the symbolic tensors compute

    On one configuration, for a network given by its row of conditionals at every site in memory order. *)
Inductive value := VSpins (s : list Z) | VReal (x : list (list R)) | VOneHot (x : list (list R)) | VComplex (x : list (list C)) | VNumber (z : C).
Fixpoint evaluate (net : list Z -> nat -> list C) (s : list Z) (t : ktensor) : option value :=
  match t with
  | KInput => Some (VSpins s)
  | KNetwork KInput | KModelOutput | KReordered (KNetwork (KOrdered KInput)) => Some (VComplex (map (net s) (range (length s))))
  | KNetwork _ | KOrdered _ | KReordered _ => None
  | KEqualUpDownSpins x i =>
      match evaluate net s x, evaluate net s i with
      | Some (VComplex x), Some (VSpins i) => Some (VComplex (equal_up_down_spins x i))
      | _, _ => None
      end
  | KNormalizeInLogSpace n x =>
      match evaluate net s x with Some (VComplex x) => Some (VComplex (map (normalize_complex (INR n)) x)) | _ => None end
  | KTwiceReal x => match evaluate net s x with Some (VComplex x) => Some (VReal (map (map (fun z => Re z * 2)%R) x)) | _ => None end
  | KPlusMinusOneToOneHot x => match evaluate net s x with Some (VSpins s) => Some (VReal (map plus_minus_one_to_one_hot s)) | _ => None end
  | KToComplex64 x => match evaluate net s x with Some (VReal x) => Some (VOneHot x) | _ => None end
  | KCombine x h =>
      match evaluate net s x, evaluate net s h with
      | Some (VComplex x), Some (VOneHot h) => Some (VNumber (combine_complex x h))
      | _, _ => None
      end
  end.
