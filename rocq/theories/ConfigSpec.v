(** What it means for a layer to survive saving and loading. *)
From Coq Require Import Ascii String List ZArith Bool Arith Reals.
From Verif Require Import Base IsingModel TensorModel ConfigModel.
Import ListNotations.
Local Open Scope string_scope.
Local Open Scope list_scope.
Local Open Scope nat_scope.

(** Values JSON can write: no foreign object inside. *)
Fixpoint json_safe (v : pyval) : Prop :=
  match v with
  | VTuple l | VList l => (fix all l := match l with [] => True | x :: t => json_safe x /\ all t end) l
  | VDict l => (fix all l := match l with [] => True | (_, x) :: t => json_safe x /\ all t end) l
  | VTensor => False
  | _ => True
  end.
(** Values JSON gives back unchanged: no tuple and no array inside either. *)
Fixpoint json_native (v : pyval) : Prop :=
  match v with
  | VList l => (fix all l := match l with [] => True | x :: t => json_native x /\ all t end) l
  | VDict l => (fix all l := match l with [] => True | (_, x) :: t => json_native x /\ all t end) l
  | VTuple _ | VArray _ | VTensor => False
  | _ => True
  end.

(** A python sequence of the integers [l]. *)
Definition sequence_of (l : list Z) (v : pyval) : Prop := v = VTuple (map VInt l) \/ v = VList (map VInt l) \/ v = VArray l.
Definition base_key (k : string) : Prop := k = "name" \/ k = "trainable" \/ k = "dtype".
Definition no_base_keys (c : config) : Prop := forall k v, In (k, v) c -> ~ base_key k.

(** Layers with ordinary arguments whose class overrides get_config, or needs no arguments, or belongs to Keras. *)
Inductive ordinary : attributes -> Prop :=
| O_cast s : ordinary (ACasting (VStr s))
| O_gather l i a : sequence_of l i -> ordinary (AGather i (VInt a))
| O_pad l p : sequence_of l p -> ordinary (APadding p)
| O_roll l m r a : sequence_of l r -> sequence_of m a -> List.length l = List.length m -> ordinary (ARoll r a)
| O_rot k : ordinary (ARot90 (VInt k))
| O_plain c : In c [FlipLeftRight; ExpandInputDim; DownShift; RightShift; Histograms] -> ordinary (APlain c)
| O_complex a : ordinary (AToComplex (VInt a))
| O_weight n c p e : json_safe (VDict c) -> ordinary (AWeightNorm n c (VBool p) (VBool e))
| O_lambda c code closure : c = PlainLambda \/ c = OneToOne -> (forall v, In v closure -> json_native v) -> ordinary (ALambda c (Function code closure))
| O_builtin n args : json_safe (VDict args) -> no_base_keys args -> ordinary (ABuiltin n args).

(** [from_config(get_config())], as in clone_model; and the same with the configuration written to and read from JSON. *)
Definition clone (strict : bool) (l : layer) : res layer :=
  do c <- get_config strict l ; from_config (class_of (attrs l)) c.
Definition reload (strict : bool) (l : layer) : res layer :=
  do c <- get_config strict l ; do j <- json_config c ; from_config (class_of (attrs l)) j.

(** [l'] is a layer of the same class, with the same name and type, which does the same, without an exception. *)
Definition restored (l l' : layer) : Prop :=
  base l' = base l /\ class_of (attrs l') = class_of (attrs l) /\ exists a, action_of l = Ok a /\ action_of l' = Ok a.

(** The same classes with any values of the arguments (a Roll layer has as many axes as shifts). *)
Inductive configurable : attributes -> Prop :=
| F_cast t : configurable (ACasting t)
| F_gather i a : configurable (AGather i a)
| F_pad p : configurable (APadding p)
| F_roll l m r a : r = VTuple l \/ r = VList l -> a = VTuple m \/ a = VList m -> List.length l = List.length m -> configurable (ARoll r a)
| F_rot k : configurable (ARot90 k)
| F_plain c : In c [FlipLeftRight; ExpandInputDim; DownShift; RightShift; Histograms] -> configurable (APlain c)
| F_complex a : configurable (AToComplex a)
| F_weight n c p e : configurable (AWeightNorm n c p e)
| F_lambda c code closure : c = PlainLambda \/ c = OneToOne -> configurable (ALambda c (Function code closure))
| F_builtin n args : no_base_keys args -> configurable (ABuiltin n args).
