(** Model of the command lines of the scripts: the parsers built in experiments/ising_runner.py, heisenberg_runner.py, train.py, run_evaluation.py,
    examples/ising.py and examples/benchmark.py, what argparse does with them, and the configuration file that train.py writes.

    argparse is a library of python; the model follows its documented algorithm (python 3.6 and 3.7, the versions that run the supported
    tensorflow): every argument is classified as an option, a plain argument or the separator, then options and positional arguments are consumed
    from left to right. Left out: prefix files, mutually exclusive groups, nargs other than those used, messages. A string is a list of ASCII
    characters (int() and the test for negative numbers also know other digits). *)
From Coq Require Import String Ascii List ZArith Reals Bool Arith.
From Verif Require Import Base.
Import ListNotations.
Local Open Scope list_scope.
Local Open Scope nat_scope.

(** An attribute of the configuration. [VFunc]: one of the functions train, run. *)
Inductive value := VNone | VBool (b : bool) | VInt (z : Z) | VFloat (x : R) | VStr (s : string) | VList (vs : list value) | VFunc (name : string).
(** The types int, float and str of add_argument. *)
Inductive kind := KInt | KFloat | KStr.
(** nargs: not given, '?' and '+'. *)
Inductive nargs := One | Optional | OneOrMore.
(** What an option does: store its arguments, store a constant (store_true, store_false), or print the help and exit. *)
Inductive action := Store (n : nargs) (k : kind) (choices : option (list value)) | StoreConst (b : bool) | Help.
(** An option: its option strings, the attribute, the action, the default (after set_defaults, which replaces the defaults of the options there
    are), required. *)
Record opt := { flags : list string; dest : string; act : action; default : value; required : bool }.
(** A parser without positional arguments; [constants]: the names given to set_defaults that are no options (func). *)
Record parser := { options : list opt; constants : list (string * value) }.
(** The positional argument of a parser: none, one with choices, or the subcommands. *)
Inductive positional := NoPositional | Choice (name : string) (names : list string) | Command (table : list (string * parser)).
(** The attributes set so far: vars(namespace), in the order in which they are created. *)
Definition namespace := list (string * value).
Fixpoint getattr (ns : namespace) (d : string) : option value :=
  match ns with [] => None | (x, v) :: t => if String.eqb x d then Some v else getattr t d end.
Fixpoint setattr (d : string) (v : value) (ns : namespace) : namespace :=
  match ns with [] => [(d, v)] | (x, w) :: t => if String.eqb x d then (x, v) :: t else (x, w) :: setattr d v t end.

(** The result of parsing: a value, sys.exit with a status (2 after an error message, 0 after the help), or another exception. *)
Inductive parsed (A : Type) := Done (a : A) | Exit (status : nat) | Raised (e : exn).
Arguments Done {A} a. Arguments Exit {A} status. Arguments Raised {A} e.
Definition andthen {A B} (r : parsed A) (f : A -> parsed B) : parsed B :=
  match r with Done a => f a | Exit n => Exit n | Raised e => Raised e end.

(** ** Strings *)
Definition dash : ascii := "-"%char.
Definition first_is (c : ascii) (s : string) : bool := match s with EmptyString => false | String x _ => Ascii.eqb x c end.
(** arg_string.split('=', 1), if there is a '='. *)
Fixpoint split_eq (s : string) : option (string * string) :=
  match s with
  | EmptyString => None
  | String c t => if Ascii.eqb c "="%char then Some (EmptyString, t)
                  else match split_eq t with Some (a, b) => Some (String c a, b) | None => None end
  end.
Fixpoint has_space (s : string) : bool := match s with EmptyString => false | String c t => Ascii.eqb c " "%char || has_space t end.
Definition is_digit (c : ascii) : bool := (48 <=? nat_of_ascii c) && (nat_of_ascii c <=? 57).
Fixpoint all_digits (s : string) : bool := match s with EmptyString => true | String c t => is_digit c && all_digits t end.
(** The expression ^-\d+$|^-\d*\.\d+$ of argparse. *)
Fixpoint digits_dot_digits (s : string) : bool :=
  match s with
  | EmptyString => false
  | String c t => if Ascii.eqb c "."%char then negb (String.eqb t EmptyString) && all_digits t else is_digit c && digits_dot_digits t
  end.
Definition negative_number (s : string) : bool :=
  match s with
  | EmptyString => false
  | String c t => Ascii.eqb c dash && ((negb (String.eqb t EmptyString) && all_digits t) || digits_dot_digits t)
  end.
(** int(s): blanks around, a sign, digits with single underscores between them. *)
Definition is_blank (c : ascii) : bool := let n := nat_of_ascii c in (n =? 32) || ((9 <=? n) && (n <=? 13)).
Fixpoint digits_value (acc : Z) (after_digit : bool) (s : string) : option Z :=
  match s with
  | EmptyString => if after_digit then Some acc else None
  | String c t =>
      if is_digit c then digits_value (10 * acc + Z.of_nat (nat_of_ascii c - 48)) true t
      else if Ascii.eqb c "_"%char && after_digit then digits_value acc false t
      else None
  end.
Fixpoint strip_left (s : string) : string := match s with EmptyString => s | String c t => if is_blank c then strip_left t else s end.
Fixpoint strip_right (s : string) : string :=
  match s with
  | EmptyString => s
  | String c t => let r := strip_right t in if is_blank c && String.eqb r EmptyString then EmptyString else String c r
  end.
Definition int_of_string (s : string) : option Z :=
  match strip_right (strip_left s) with
  | EmptyString => None
  | String c t => if Ascii.eqb c dash then match digits_value 0 false t with Some z => Some (- z)%Z | None => None end
                  else if Ascii.eqb c "+"%char then digits_value 0 false t
                  else digits_value 0 false (String c t)
  end.

Section Argparse.
  (** float(s), for the strings that it accepts. *)
  Context (read_float : string -> option R).

  (** [_get_value]: the conversion of one argument. *)
  Definition convert (k : kind) (s : string) : option value :=
    match k with
    | KInt => match int_of_string s with Some z => Some (VInt z) | None => None end
    | KFloat => match read_float s with Some x => Some (VFloat x) | None => None end
    | KStr => Some (VStr s)
    end.
  (** [_check_value]: value in choices. *)
  Definition same_value (a b : value) : bool :=
    match a, b with
    | VFloat x, VFloat y => if Req_EM_T x y then true else false
    | VInt x, VInt y => Z.eqb x y
    | VStr x, VStr y => String.eqb x y
    | _, _ => false
    end.
  Definition allowed (choices : option (list value)) (v : value) : bool :=
    match choices with None => true | Some l => existsb (same_value v) l end.
  (** One argument, converted and checked; otherwise an error message. *)
  Definition get_value (k : kind) (choices : option (list value)) (s : string) : parsed value :=
    match convert k s with None => Exit 2 | Some v => if allowed choices v then Done v else Exit 2 end.
  Fixpoint get_list (k : kind) (choices : option (list value)) (l : list string) : parsed (list value) :=
    match l with
    | [] => Done []
    | s :: t => andthen (get_value k choices s) (fun v => andthen (get_list k choices t) (fun vs => Done (v :: vs)))
    end.
  (** arg_strings.remove('--'), for the arguments of everything but the subcommands. *)
  Fixpoint remove_separator (l : list string) : list string :=
    match l with [] => [] | s :: t => if String.eqb s "--" then t else s :: remove_separator t end.
  (** [_get_values] of an option that stores its arguments. An option without nargs that is left without an argument (--gamma=--) gets the
      empty list; '?' without argument gives the attribute const, which is None. *)
  Definition get_values (n : nargs) (k : kind) (choices : option (list value)) (args : list string) : parsed value :=
    match n, remove_separator args with
    | Optional, [] => Done VNone
    | One, [s] | Optional, [s] => get_value k choices s
    | _, l => andthen (get_list k choices l) (fun vs => Done (VList vs))
    end.

  (** ** The classification of the arguments *)
  Definition find_flag (os : list opt) (s : string) : option opt := find (fun o => existsb (String.eqb s) (flags o)) os.
  (** [_get_option_tuples]: the options that [s] abbreviates, or whose one-letter name it starts with. *)
  Definition option_tuples (os : list opt) (s : string) : list (opt * string * option string) :=
    let double := match s with String _ t => first_is dash t | EmptyString => false end in
    let '(start, explicit) := match split_eq s with Some (a, b) => (a, Some b) | None => (s, None) end in
    flat_map (fun o => flat_map (fun f =>
        if double then (if String.prefix start f then [(o, f, explicit)] else [])
        else if String.eqb f (substring 0 2 s) then [(o, f, Some (substring 2 (String.length s - 2) s))]
        else if String.prefix s f then [(o, f, None)] else []) (flags o)) os.
  (** 'A', '-' (the separator) and 'O'; an unknown option has no action. *)
  Inductive token := Arg | Separator | Option_ (o : option opt) (flag : string) (explicit : option string).
  (** [_parse_optional]. *)
  Definition parse_optional (os : list opt) (s : string) : parsed token :=
    if negb (first_is dash s) then Done Arg else
    match find_flag os s with
    | Some o => Done (Option_ (Some o) s None)
    | None =>
        if String.length s =? 1 then Done Arg else
        match match split_eq s with Some (a, b) => match find_flag os a with Some o => Some (o, a, b) | None => None end | None => None end with
        | Some (o, a, b) => Done (Option_ (Some o) a (Some b))
        | None =>
            match option_tuples os s with
            | _ :: _ :: _ => Exit 2
            | [(o, f, e)] => Done (Option_ (Some o) f e)
            | [] => if negative_number s then Done Arg else if has_space s then Done Arg else Done (Option_ None s None)
            end
        end
    end.
  (** Everything after a first separator is a plain argument. No option of the scripts looks like a negative number. *)
  Fixpoint classify (os : list opt) (args : list string) : parsed (list (token * string)) :=
    match args with
    | [] => Done []
    | s :: t =>
        if String.eqb s "--" then Done ((Separator, s) :: map (fun x => (Arg, x)) t)
        else andthen (parse_optional os s) (fun k => andthen (classify os t) (fun r => Done ((k, s) :: r)))
    end.

  (** ** Consuming them *)
  (** [left]: the positional argument, until it is consumed. [seen]: the option strings of the options that occurred. *)
  Record state := { attrs : namespace; seen : list (list string); left : positional; extras : list string }.
  Definition is_option (t : token * string) : bool := match fst t with Option_ _ _ _ => true | _ => false end.
  Definition is_arg (t : token * string) : bool := match fst t with Arg => true | _ => false end.
  Definition is_separator (t : token * string) : bool := match fst t with Separator => true | _ => false end.
  Fixpoint span {A} (p : A -> bool) (l : list A) : list A * list A :=
    match l with [] => ([], []) | x :: t => if p x then let '(a, b) := span p t in (x :: a, b) else ([], l) end.
  (** [_match_argument] for an option: how many of the arguments that follow it takes. *)
  Definition arg_count (a : action) (rest : list (token * string)) : parsed nat :=
    let n := length (fst (span is_arg rest)) in
    match a with
    | StoreConst _ | Help => Done 0
    | Store One _ _ => if n =? 0 then Exit 2 else Done 1
    | Store Optional _ _ => Done (Nat.min 1 n)
    | Store OneOrMore _ _ => if n =? 0 then Exit 2 else Done n
    end.
  Definition takes_nothing (a : action) : bool := match a with Store _ _ _ => false | _ => true end.
  (** The loop of consume_optional: the options named by one argument (several one-letter options may be joined), each with its arguments, and
      the number of further arguments used. [e] is the explicit argument, after '=' or glued to a one-letter option. *)
  Fixpoint joined (os : list opt) (o : opt) (flag : string) (e : string) (rest : list (token * string)) : parsed (list (opt * list string) * nat) :=
    if takes_nothing (act o) then
      if match flag with String _ t => first_is dash t | EmptyString => false end then Exit 2 else
      match e with
      | EmptyString => Raised IndexError
      | String c e' =>
          let flag' := String dash (String c EmptyString) in
          match find_flag os flag' with
          | None => Exit 2
          | Some o' =>
              andthen match e' with
                      | EmptyString => andthen (arg_count (act o') rest) (fun n => Done ([(o', map snd (firstn n rest))], n))
                      | _ => joined os o' flag' e' rest
                      end (fun r => Done ((o, []) :: fst r, snd r))
          end
      end
    else Done ([(o, [e])], 0).
  Definition option_actions (os : list opt) (o : opt) (flag : string) (explicit : option string) (rest : list (token * string)) :
    parsed (list (opt * list string) * nat) :=
    match explicit with
    | Some e => joined os o flag e rest
    | None => andthen (arg_count (act o) rest) (fun n => Done ([(o, map snd (firstn n rest))], n))
    end.
  (** [take_action]. *)
  Definition take_action (o : opt) (args : list string) (st : state) : parsed state :=
    let put v := Done {| attrs := setattr (dest o) v (attrs st); seen := flags o :: seen st; left := left st; extras := extras st |} in
    match act o with
    | Help => Exit 0
    | StoreConst b => put (VBool b)
    | Store n k choices => andthen (get_values n k choices args) put
    end.
  Fixpoint take_actions (l : list (opt * list string)) (st : state) : parsed state :=
    match l with [] => Done st | (o, args) :: t => andthen (take_action o args st) (take_actions t) end.
  (** The attributes before anything is consumed: the defaults, then the constants of set_defaults. *)
  Definition add_default (ns : namespace) (d : string * value) : namespace :=
    match getattr ns (fst d) with Some _ => ns | None => ns ++ [d] end.
  Definition initial (p : parser) : namespace :=
    fold_left add_default (flat_map (fun o => match act o with Help => [] | _ => [(dest o, default o)] end) (options p) ++ constants p) [].
  Definition is_seen (st : state) (o : opt) : bool := existsb (fun f => if list_eq_dec string_dec f (flags o) then true else false) (seen st).

  (** One parser: [positionals] consumes the positional argument. *)
  Section Consume.
    Context (os : list opt) (positionals : state -> list (token * string) -> parsed (state * list (token * string))).
    Definition add_extras (l : list (token * string)) (st : state) : state :=
      {| attrs := attrs st; seen := seen st; left := left st; extras := extras st ++ map snd l |}.
    (** The loop of [_parse_known_args]; [fuel] bounds the number of rounds (each consumes at least one argument). *)
    Fixpoint consume (fuel : nat) (st : state) (rest : list (token * string)) : parsed state :=
      match fuel with
      | 0 => Done st
      | S fuel =>
          if existsb is_option rest then
            match rest with
            | (Option_ o flag explicit, s) :: t =>
                match o with
                | None => consume fuel (add_extras [(Option_ o flag explicit, s)] st) t
                | Some o => andthen (option_actions os o flag explicit t) (fun r =>
                              andthen (take_actions (fst r) st) (fun st => consume fuel st (skipn (snd r) t)))
                end
            | _ =>
                andthen (positionals st rest) (fun r =>
                  if length (snd r) <? length rest then consume fuel (fst r) (snd r)
                  else let '(a, b) := span (fun x => negb (is_option x)) rest in consume fuel (add_extras a (fst r)) b)
            end
          else andthen (positionals st rest) (fun r => Done (add_extras (snd r) (fst r)))
      end.
  End Consume.
  (** [parse_known_args]; afterwards the required options must have occurred, and so must the positional argument with choices (the
      subcommands are not required). *)
  Definition parse_known (p : parser) (pos : positional) (positionals : state -> list (token * string) -> parsed (state * list (token * string)))
    (args : list string) : parsed state :=
    andthen (classify (options p) args) (fun tokens =>
    andthen (consume (options p) positionals (S (length tokens)) {| attrs := initial p; seen := []; left := pos; extras := [] |} tokens) (fun st =>
    if existsb (fun o => required o && negb (is_seen st o)) (options p) || match left st with Choice _ _ => true | _ => false end then Exit 2
    else Done st)).
  (** A parser without positional argument. *)
  Definition no_positionals (st : state) (rest : list (token * string)) : parsed (state * list (token * string)) := Done (st, rest).
  Fixpoint find_parser (table : list (string * parser)) (name : string) : option parser :=
    match table with [] => None | (n, p) :: t => if String.eqb n name then Some p else find_parser t name end.
  (** consume_positionals: one argument with choices takes one plain argument (and the separators around it); the subcommands take everything
      that is left, which the parser of the subcommand parses into attributes of its own; those are copied. *)
  Definition positionals (st : state) (rest : list (token * string)) : parsed (state * list (token * string)) :=
    match left st with
    | NoPositional => Done (st, rest)
    | Choice name names =>
        let '(before, r) := span is_separator rest in
        match r with
        | (Arg, s) :: t =>
            let '(after, t') := span is_separator t in
            match remove_separator (map snd before ++ s :: map snd after) with
            | [v] => if existsb (String.eqb v) names then
                       Done ({| attrs := setattr name (VStr v) (attrs st); seen := seen st; left := NoPositional; extras := extras st |}, t')
                     else Exit 2
            | _ => Exit 2 (* not reached: there is one separator at most *)
            end
        | _ => Done (st, rest)
        end
    | Command table =>
        match snd (span is_separator rest) with
        | (Arg, _) :: _ =>
            match map snd rest with
            | [] => Done (st, rest)
            | name :: args =>
                match find_parser table name with
                | None => Exit 2
                | Some p =>
                    andthen (parse_known p NoPositional no_positionals args) (fun sub =>
                      Done ({| attrs := fold_left (fun ns d => setattr (fst d) (snd d) ns) (attrs sub) (attrs st); seen := seen st;
                               left := NoPositional; extras := extras st ++ extras sub |}, []))
                end
            end
        | _ => Done (st, rest)
        end
    end.
  (** [parse_args]. A positional argument with choices is an attribute from the start (None). *)
  Definition parse_args (p : parser) (pos : positional) (args : list string) : parsed namespace :=
    let p' := match pos with Choice name _ => {| options := options p; constants := (name, VNone) :: constants p |} | _ => p end in
    andthen (parse_known p' pos positionals args) (fun st =>
      match extras st with [] => Done (attrs st) | _ :: _ => Exit 2 end).
End Argparse.

(** ** The parsers of the scripts *)
Local Open Scope string_scope.
Local Open Scope list_scope.
Definition help_option : opt := {| flags := ["-h"; "--help"]; dest := "help"; act := Help; default := VNone; required := false |}.
Definition valued (flag d : string) (n : nargs) (k : kind) (v : value) (r : bool) : opt :=
  {| flags := ["--" ++ flag]%string; dest := d; act := Store n k None; default := v; required := r |}.
Definition switch (flag d : string) (b v : bool) : opt :=
  {| flags := ["--" ++ flag]%string; dest := d; act := StoreConst b; default := VBool v; required := false |}.
Definition ints (l : list Z) : value := VList (map VInt l).
Definition floats (l : list R) : value := VList (map VFloat l).

(** run_evaluation.py:29-41 [create_evaluation_config_parser], for a parser whose func is [f]. *)
Definition evaluation_parser (f : string) (depth mini_batch_size : Z) (hilbert_state_shape : list Z) : parser :=
  {| options := [help_option;
       valued "num_of_samples" "num_of_samples" One KInt (VInt (2 ^ 16)) false;
       valued "weights_path" "weights_path" One KStr VNone true;
       valued "hilbert_state_shape" "hilbert_state_shape" OneOrMore KInt (ints hilbert_state_shape) false;
       valued "width" "width" One KInt (VInt 32) false;
       valued "depth" "depth" One KInt (VInt depth) false;
       valued "mini_batch_size" "mini_batch_size" One KInt (VInt mini_batch_size) false;
       switch "use_weights_normalization" "weights_normalization" true true;
       switch "no_weights_normalization" "weights_normalization" false true];
     constants := [("func", VFunc f)] |}.
(** train.py:163-185 [create_training_config_parser]. *)
Definition training_parser (f : string) (depth mini_batch_size : Z) (num_epoch batch_size hilbert_state_shape : list Z) (learning_rate : list R) : parser :=
  {| options := [help_option;
       valued "output_path" "output_path" One KStr VNone true;
       valued "validation_period" "validation_period" One KInt (VInt 3) false;
       valued "hilbert_state_shape" "hilbert_state_shape" OneOrMore KInt (ints hilbert_state_shape) false;
       valued "batch_size" "batch_size" OneOrMore KInt (ints batch_size) false;
       valued "num_epoch" "num_epoch" OneOrMore KInt (ints num_epoch) false;
       valued "steps_per_epoch" "steps_per_epoch" One KInt (VInt 100) false;
       valued "learning_rate" "learning_rate" OneOrMore KFloat (floats learning_rate) false;
       valued "width" "width" One KInt (VInt 32) false;
       valued "depth" "depth" One KInt (VInt depth) false;
       valued "mini_batch_size" "mini_batch_size" One KInt (VInt mini_batch_size) false;
       switch "use_weights_normalization" "weights_normalization" true true;
       switch "no_weights_normalization" "weights_normalization" false true;
       switch "use_horovod" "use_horovod" true false;
       switch "disable_horovod" "use_horovod" false false];
     constants := [("func", VFunc f)] |}.
(** ising_runner.py:9-21. *)
Definition ising_parser : parser :=
  {| options := [help_option; valued "gamma" "gamma" One KFloat VNone true; switch "use_pbc" "pbc" true false; switch "no_pbc" "pbc" false false];
     constants := [] |}.
Definition ising_commands : list (string * parser) :=
  [("train", training_parser "train" 10 (2 ^ 12) [100; 100; 50]%Z [2 ^ 7; 2 ^ 10; 2 ^ 13]%Z [12; 12]%Z [0.001; 0.001; 0.001]%R);
   ("eval", evaluation_parser "run" 10 (2 ^ 8) [12; 12]%Z)].
(** heisenberg_runner.py:9-19. *)
Definition heisenberg_parser : parser :=
  {| options := [help_option; switch "use_pbc" "pbc" true false; switch "no_pbc" "pbc" false false]; constants := [] |}.
Definition heisenberg_commands : list (string * parser) :=
  [("train", training_parser "train" 20 (2 ^ 11) [80; 370]%Z [2 ^ 10; 2 ^ 11]%Z [10; 10]%Z [0.001; 0.001]%R);
   ("eval", evaluation_parser "run" 20 (2 ^ 7) [10; 10]%Z)].
(** examples/ising.py:152-162 [get_params]. *)
Definition example_parser : parser :=
  {| options := [help_option;
       {| flags := ["--gamma"]; dest := "gamma"; act := Store One KFloat (Some [VFloat 2; VFloat 2.5; VFloat 3; VFloat 3.5; VFloat 4]);
          default := VNone; required := false |};
       valued "depth" "depth" One KInt (VInt 20) false;
       valued "width" "width" One KInt (VInt 32) false;
       valued "learning_rate" "learning_rate" One KFloat (VFloat 0.001) false;
       switch "no_weights_normalization" "no_weights_normalization" true false;
       valued "run_index" "run_index" One KInt (VInt 1) false];
     constants := [] |}.
(** examples/benchmark.py:103-120 [define_args_parser]. *)
Definition benchmark_option (names : list string) (d : string) (k : kind) (v : value) : opt :=
  {| flags := names; dest := d; act := Store Optional k None; default := v; required := false |}.
Definition benchmark_switch (names : list string) (d : string) : opt :=
  {| flags := names; dest := d; act := StoreConst true; default := VBool false; required := false |}.
Definition benchmark_parser : parser :=
  {| options := [help_option;
       benchmark_option ["-learning_rate"; "-l"] "learning_rate" KFloat (VFloat 0.0001);
       benchmark_option ["-input_size"; "-i"] "input_size" KInt (VInt 20);
       benchmark_option ["-batch_size"; "-b"] "batch_size" KInt (VInt 1000);
       benchmark_option ["-kernel_size"; "-k"] "kernel_size" KInt (VInt 4);
       benchmark_option ["-depth"; "-d"] "depth" KInt (VInt 2);
       benchmark_option ["-width"; "-w"] "width" KInt (VInt 4);
       benchmark_option ["-pyket_num_of_chains"] "pyket_num_of_chains" KInt (VInt 20);
       benchmark_option ["-num_of_iterations"] "num_of_iterations" KInt (VInt 20);
       benchmark_switch ["-use_cholesky"] "use_cholesky";
       benchmark_switch ["-use_iterative"] "use_iterative";
       benchmark_switch ["-pyket_on_cpu"; "-cpu"] "pyket_on_cpu";
       benchmark_switch ["-use_stochastic_reconfiguration"; "-sr"] "use_stochastic_reconfiguration";
       benchmark_switch ["-fast_jacobian"] "fast_jacobian";
       benchmark_switch ["-no_pfor"] "no_pfor"];
     constants := [] |}.

(** The four parsers applied to sys.argv[1:]. *)
Definition ising_args (read_float : string -> option R) := parse_args read_float ising_parser (Command ising_commands).
Definition heisenberg_args (read_float : string -> option R) := parse_args read_float heisenberg_parser (Command heisenberg_commands).
Definition example_args (read_float : string -> option R) := parse_args read_float example_parser NoPositional.
Definition benchmark_args (read_float : string -> option R) := parse_args read_float benchmark_parser (Choice "framework" ["flowket"; "netket"]).

(** ** The configuration file *)
Local Open Scope nat_scope.
(** train.py:68-73 [to_valid_stages_config], on the attributes. *)
Definition as_list (v : option value) : res (list value) :=
  match v with None => Err AttributeError | Some (VList l) => Ok l | Some _ => Err TypeError end.
Definition nested (l epochs : list value) : list value := if length l =? 1 then repeat (VList l) (length epochs) else l.
Definition valid_stages (ns : namespace) : res namespace :=
  do b <- as_list (getattr ns "batch_size");
  do e <- as_list (getattr ns "num_epoch");
  do l <- as_list (getattr ns "learning_rate");
  let ns := if length b =? 1 then setattr "batch_size" (VList (nested b e)) ns else ns in
  let ns := if length l =? 1 then setattr "learning_rate" (VList (nested l e)) ns else ns in
  if (length (nested b e) =? length e) && (length (nested l e) =? length e) then Ok ns else Err AssertionError.
(** [del config.func]; json.dump with sort_keys: the keys in order. The text of the file (indent, numbers, quotes) is not modelled. *)
Fixpoint delattr (d : string) (ns : namespace) : namespace :=
  match ns with [] => [] | (x, v) :: t => if String.eqb x d then t else (x, v) :: delattr d t end.
Fixpoint insert_key (d : string * value) (l : namespace) : namespace :=
  match l with [] => [d] | e :: t => if String.ltb (fst d) (fst e) then d :: l else e :: insert_key d t end.
Definition sort_keys (ns : namespace) : namespace := fold_right insert_key [] ns.
(** train.py:154-160 [save_config]: config.json, and the configuration that is left. Functions cannot be written. *)
Fixpoint serialisable (v : value) : bool :=
  match v with VFunc _ => false | VList l => forallb serialisable l | _ => true end.
Definition save_config (ns : namespace) : res (namespace * namespace) :=
  let ns := match getattr ns "func" with Some _ => delattr "func" ns | None => ns end in
  match getattr ns "output_path" with
  | None => Err AttributeError
  | Some (VStr _) => if forallb (fun d => serialisable (snd d)) ns then Ok (sort_keys ns, ns) else Err TypeError
  | Some _ => Err TypeError
  end.
(** train.py:79-82 on rank 0: the file that the first lines of train write. *)
Definition config_file (ns : namespace) : res namespace :=
  do ns <- valid_stages ns; do r <- save_config ns; Ok (fst r).
