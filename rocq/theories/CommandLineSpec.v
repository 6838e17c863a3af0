(** Specification for the command lines: what a written option means, which option a word names, which value an attribute ends up with. *)
From Coq Require Import String Ascii List ZArith Reals Bool Arith.
From Verif Require Import Base CommandLineModel RunnerModel.
Import ListNotations.
Local Open Scope list_scope.
Local Open Scope nat_scope.

(** ** Words *)
Definition chars (s : string) : list ascii := list_ascii_of_string s.
Definition digit (c : ascii) : Prop := exists n, n < 10 /\ c = ascii_of_nat (48 + n).
(** A word that cannot be taken for an option: it does not start with '-', or it is a negative decimal number. *)
Definition negative_decimal (s : string) : Prop :=
  exists a b, Forall digit (chars a) /\ Forall digit (chars b) /\ b <> EmptyString /\ (s = "-" ++ b \/ s = "-" ++ a ++ "." ++ b)%string.
Definition plain (s : string) : Prop := (forall t, s <> String "-" t) \/ negative_decimal s.
(** The option strings of a parser: different, starting with '-', not like a number, without '='. *)
Definition flag_ok (f : string) : Prop :=
  ~ In "="%char (chars f) /\ exists c t, f = String "-" (String c t) /\ ~ digit c /\ c <> "."%char /\ (c = "-"%char -> t <> EmptyString).
Definition flags_ok (os : list opt) : Prop := NoDup (flat_map flags os) /\ Forall flag_ok (flat_map flags os) /\ Forall (fun o => flags o <> []) os.
(** The option that a word names: it is one of its option strings, or starts one of them and no other option string of the parser. *)
Definition names (os : list opt) (w : string) (o : opt) : Prop :=
  In o os /\
  (In w (flags o) \/
   (~ In "="%char (chars w) /\ (exists c t, w = String "-" (String "-" (String c t))) /\
    exists f, In f (flags o) /\ (exists rest, f = (w ++ rest)%string) /\ forall g, In g (flat_map flags os) -> (exists rest, g = (w ++ rest)%string) -> g = f)).

Section Meaning.
  Context (read_float : string -> option R).
  (** The value that one argument stands for. *)
  Inductive reads : kind -> string -> value -> Prop :=
  | reads_int s z : int_of_string s = Some z -> reads KInt s (VInt z)
  | reads_float s x : read_float s = Some x -> reads KFloat s (VFloat x)
  | reads_str s : reads KStr s (VStr s).
  Definition permitted (choices : option (list value)) (v : value) : Prop := match choices with None => True | Some l => In v l end.
  (** The value that an option with these arguments gives to its attribute. *)
  Inductive means (o : opt) : list string -> value -> Prop :=
  | means_switch b : act o = StoreConst b -> means o [] (VBool b)
  | means_one n k c s v : act o = Store n k c -> n <> OneOrMore -> reads k s v -> permitted c v -> means o [s] v
  | means_none k c : act o = Store Optional k c -> means o [] VNone
  | means_many k c ss vs : act o = Store OneOrMore k c -> ss <> [] -> Forall2 (fun s v => reads k s v /\ permitted c v) ss vs -> means o ss (VList vs).
  (** An option as it is written on a command line: followed by its arguments, or with '='. *)
  Inductive setting := Spaced (word : string) (args : list string) | Equals (word arg : string).
  Definition text (s : setting) : list string := match s with Spaced w args => w :: args | Equals w a => [(w ++ "=" ++ a)%string] end.
  Inductive denotes (os : list opt) : setting -> opt * value -> Prop :=
  | denotes_spaced w args o v : names os w o -> Forall plain args -> means o args v -> denotes os (Spaced w args) (o, v)
  | denotes_equals w a o v : names os w o -> a <> "--"%string -> means o [a] v -> denotes os (Equals w a) (o, v).
End Meaning.

(** An option that takes a fixed number of arguments, so that a positional argument may follow it. *)
Definition fixed_arity (o : opt) : Prop := match act o with Store One _ _ | StoreConst _ => True | _ => False end.
(** The last value given to an attribute. *)
Fixpoint assigned (l : list (opt * value)) (d : string) : option value :=
  match l with
  | [] => None
  | (o, v) :: t => match assigned t d with Some w => Some w | None => if String.eqb (dest o) d then Some v else None end
  end.
(** The value of an attribute that no option sets. *)
Definition default_value (p : parser) (d : string) : option value :=
  match find (fun o => String.eqb (dest o) d && match act o with Help => false | _ => true end) (options p) with
  | Some o => Some (default o)
  | None => match find (fun c => String.eqb (fst c) d) (constants p) with Some c => Some (snd c) | None => None end
  end.
Definition either {A} (a b : option A) : option A := match a with Some _ => a | None => b end.
Definition expected (p : parser) (l : list (opt * value)) (d : string) : option value := either (assigned l d) (default_value p d).
(** All required options are among those given. *)
Definition complete (p : parser) (l : list (opt * value)) : Prop := forall o, In o (options p) -> required o = true -> In o (map fst l).

(** Option strings with two dashes, no two of which continue with the same letter. *)
Definition long (f : string) : Prop := exists c t, f = String "-" (String "-" (String c t)).
Definition different_letters (os : list opt) : Prop :=
  forall f g c t u, In f (flat_map flags os) -> In g (flat_map flags os) ->
    f = String "-" (String "-" (String c t)) -> g = String "-" (String "-" (String c u)) -> f = g.

(** ** The configuration of the scripts *)
(** The attributes that RunnerModel.v reads, for numbers that are not negative. [workers]: hvd.size() with --use_horovod. *)
Definition naturals (v : option value) : option (list nat) :=
  match v with
  | Some (VList l) => fold_right (fun x acc => match x, acc with VInt z, Some t => if (0 <=? z)%Z then Some (Z.to_nat z :: t) else None | _, _ => None end) (Some []) l
  | _ => None
  end.
Definition natural (v : option value) : option nat := match v with Some (VInt z) => if (0 <=? z)%Z then Some (Z.to_nat z) else None | _ => None end.
Definition reals (v : option value) : option (list R) :=
  match v with
  | Some (VList l) => fold_right (fun x acc => match x, acc with VFloat r, Some t => Some (r :: t) | _, _ => None end) (Some []) l
  | _ => None
  end.
Definition flag_value (v : option value) : option bool := match v with Some (VBool b) => Some b | _ => None end.
Definition config_of (ns : namespace) (workers : option nat) : option config :=
  match naturals (getattr ns "hilbert_state_shape"), flag_value (getattr ns "pbc"), natural (getattr ns "mini_batch_size"),
        (match getattr ns "gamma" with Some (VFloat g) => Some g | None => Some 0%R | _ => None end), getattr ns "func" with
  | Some shape, Some p, Some mini, Some g, Some (VFunc f) =>
      if String.eqb f "train" then
        match naturals (getattr ns "batch_size"), naturals (getattr ns "num_epoch"), reals (getattr ns "learning_rate"), flag_value (getattr ns "use_horovod") with
        | Some b, Some e, Some l, Some h =>
            Some {| func := Some Train; hilbert_state_shape := shape; pbc := p; gamma := g; batch_size := b; num_epoch := e; learning_rate := l;
                    mini_batch_size := mini; workers := if h then workers else None; num_of_samples := 0 |}
        | _, _, _, _ => None
        end
      else
        match natural (getattr ns "num_of_samples") with
        | Some n => Some {| func := Some Eval; hilbert_state_shape := shape; pbc := p; gamma := g; batch_size := []; num_epoch := []; learning_rate := [];
                            mini_batch_size := mini; workers := None; num_of_samples := n |}
        | None => None
        end
  | _, _, _, _, _ => None
  end.

(** ** What a value of an attribute can be *)
(** A value that an option can store: a constant; one value of its type; nothing, for an option that may go without argument; a list of values. *)
Definition typed (k : kind) (v : value) : Prop := match k, v with KInt, VInt _ | KFloat, VFloat _ | KStr, VStr _ => True | _, _ => False end.
Definition storable (o : opt) (v : value) : Prop :=
  match act o with
  | Help => False
  | StoreConst b => v = VBool b
  | Store One k c => (typed k v /\ permitted c v) \/ v = VList []
  | Store Optional k c => (typed k v /\ permitted c v) \/ v = VNone
  | Store OneOrMore k c => exists vs, v = VList vs /\ Forall (fun x => typed k x /\ permitted c x) vs
  end.
(** The value of an attribute [d] of a parser: the default, or one stored by an option for it. *)
Definition possible (p : parser) (d : string) (v : value) : Prop :=
  default_value p d = Some v \/ exists o, In o (options p) /\ dest o = d /\ storable o v.
(** The keys of the file, in strict order. *)
Fixpoint ordered (l : list string) : Prop :=
  match l with a :: (b :: _) as t => String.ltb a b = true /\ ordered t | _ => True end.
(** The attributes of a parser after a successful parse: all of them are there, with possible values; a required one has been stored by an option. *)
Definition obeys (p : parser) (ns : namespace) : Prop :=
  (forall d, default_value p d <> None -> exists v, getattr ns d = Some v /\ possible p d v) /\
  (forall o, In o (options p) -> required o = true -> exists o' v, In o' (options p) /\ dest o' = dest o /\ storable o' v /\ getattr ns (dest o) = Some v).

(** The two scripts with subcommands. *)
Definition script (p : parser) (table : list (string * parser)) : Prop :=
  (p = ising_parser /\ table = ising_commands) \/ (p = heisenberg_parser /\ table = heisenberg_commands).
(** The stages in the file: a single value is repeated for each number of epochs, but as a list of one value. *)
Definition written (values epochs : list value) : list value := match values with [x] => repeat (VList [x]) (length epochs) | _ => values end.
Definition compatible (values epochs : list value) : Prop := length values = 1 \/ length values = length epochs.
(** The word starts two option strings and is none itself. *)
Definition ambiguous (os : list opt) (w : string) : Prop :=
  ~ In w (flat_map flags os) /\ ~ In "="%char (chars w) /\ (exists c t, w = String "-" (String "-" (String c t))) /\
  exists f g, f <> g /\ In f (flat_map flags os) /\ In g (flat_map flags os) /\ (exists r, f = (w ++ r)%string) /\ exists r, g = (w ++ r)%string.
(** Arguments that the option cannot take: one of them cannot be read, or is not among the choices. *)
Definition unreadable (rf : string -> option R) (o : opt) (args : list string) : Prop :=
  match act o with
  | Store One k c | Store Optional k c => exists s, args = [s] /\ forall v, reads rf k s v -> ~ permitted c v
  | Store OneOrMore k c => exists s, In s args /\ forall v, reads rf k s v -> ~ permitted c v
  | _ => False
  end.
(** The entries of config.json for the attributes [ns] with the stages [b], [e], [l]. *)
Definition stages_file (ns : namespace) (b e l : list value) (d : string) : option value :=
  if String.eqb d "func" then None else if String.eqb d "batch_size" then Some (VList (written b e)) else if String.eqb d "learning_rate" then Some (VList (written l e)) else getattr ns d.
