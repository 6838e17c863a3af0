(** C80: the command lines of the scripts give the configurations they describe, and what is written to config.json. *)
From Coq Require Import String Ascii List ZArith Reals Bool Arith Lia Lra.
From Verif Require Import Base CommandLineModel RunnerModel CommandLineSpec CommandLineProofs.
Import ListNotations.
Local Open Scope string_scope.
Local Open Scope list_scope.
Local Open Scope nat_scope.

(** A parser without positional argument: every attribute gets the last value that an option gives it, or its default; without a required
    option the program ends with an error message. *)
Theorem C80_options : forall (rf : string -> option R) p ss l, flags_ok (options p) -> Forall2 (denotes rf (options p)) ss l ->
  (complete p l -> exists ns, parse_args rf p NoPositional (flat_map text ss) = Done ns /\ forall d, getattr ns d = expected p l d) /\
  (~ complete p l -> parse_args rf p NoPositional (flat_map text ss) = Exit 2).
Proof.
  intros rf p ss l OK F.
  assert (HP : forall st r, left st = NoPositional -> positionals rf st r = Done (st, r)) by (intros st r E; unfold positionals; rewrite E; reflexivity).
  destruct (parse_known_settings rf p (positionals rf) ss l HP OK F) as [A B]. unfold parse_args. cbv zeta iota. split; intro C.
  - rewrite (A C). cbn [andthen]. destruct (fold_put l {| attrs := initial p; seen := []; left := NoPositional; extras := [] |}) as [_ [E [_ G]]]. rewrite E. cbn [extras].
    eexists. split; [reflexivity|]. intro d. rewrite G. cbn [attrs]. rewrite getattr_initial. reflexivity.
  - rewrite (B C). reflexivity.
Qed.
Print Assumptions C80_options.

(** A parser with subcommands: its own options, the subcommand, the options of the subcommand. *)
Theorem C80_subcommands : forall (rf : string -> option R) p table name q ss l ss' l',
  flags_ok (options p) -> flags_ok (options q) -> different_letters (options p) -> (forall o, In o (options q) -> act o <> Help -> Forall long (flags o)) ->
  find_parser table name = Some q -> (forall t, name <> String "-" t) ->
  Forall2 (denotes rf (options p)) ss l -> Forall (fun ov => fixed_arity (fst ov)) l -> Forall2 (denotes rf (options q)) ss' l' ->
  (complete p l -> complete q l' -> exists ns, parse_args rf p (Command table) (flat_map text ss ++ name :: flat_map text ss') = Done ns /\
     forall d, getattr ns d = either (expected q l' d) (expected p l d)) /\
  (~ complete p l \/ ~ complete q l' -> parse_args rf p (Command table) (flat_map text ss ++ name :: flat_map text ss') = Exit 2).
Proof. intros. eapply commands_settings; eauto. Qed.
Print Assumptions C80_subcommands.

(** The two scripts meet the conditions. *)
Lemma script_ok p table : script p table -> flags_ok (options p) /\ different_letters (options p) /\ Forall (fun ov => fixed_arity ov) (filter (fun o => negb (takes_nothing (act o))) (options p)) /\
  forall name q, find_parser table name = Some q ->
    flags_ok (options q) /\ (forall o, In o (options q) -> act o <> Help -> Forall long (flags o)) /\ (forall d, defines p d -> defines q d -> False) /\ forall t, name <> String "-" t.
Proof.
  intros [[-> ->]|[-> ->]].
  - split; [apply flags_okb_ok; vm_compute; reflexivity|]. split; [apply different_lettersb; vm_compute; reflexivity|]. split; [repeat constructor|].
    intros name q H. cbn -[String.eqb training_parser evaluation_parser] in H. destruct (String.eqb_spec "train" name) as [<-|_]; [injection H as <-|destruct (String.eqb_spec "eval" name) as [<-|_]; [injection H as <-|discriminate]].
    + split; [apply flags_okb_ok; vm_compute; reflexivity|]. split; [apply long_options; vm_compute; reflexivity|]. split; [apply disjoint_domains; vm_compute; reflexivity|discriminate].
    + split; [apply flags_okb_ok; vm_compute; reflexivity|]. split; [apply long_options; vm_compute; reflexivity|]. split; [apply disjoint_domains; vm_compute; reflexivity|discriminate].
  - split; [apply flags_okb_ok; vm_compute; reflexivity|]. split; [apply different_lettersb; vm_compute; reflexivity|]. split; [repeat constructor|].
    intros name q H. cbn -[String.eqb training_parser evaluation_parser] in H. destruct (String.eqb_spec "train" name) as [<-|_]; [injection H as <-|destruct (String.eqb_spec "eval" name) as [<-|_]; [injection H as <-|discriminate]].
    + split; [apply flags_okb_ok; vm_compute; reflexivity|]. split; [apply long_options; vm_compute; reflexivity|]. split; [apply disjoint_domains; vm_compute; reflexivity|discriminate].
    + split; [apply flags_okb_ok; vm_compute; reflexivity|]. split; [apply long_options; vm_compute; reflexivity|]. split; [apply disjoint_domains; vm_compute; reflexivity|discriminate].
Qed.
Lemma script_fixed rf p table ss l : script p table -> Forall2 (denotes rf (options p)) ss l -> Forall (fun ov => fixed_arity (fst ov)) l.
Proof.
  intros S F. destruct (script_ok p table S) as [_ [_ [FX _]]]. induction F as [|s [o v] ss l D F IH]; [constructor|]. constructor; [|exact IH]. cbn [fst].
  assert (I : In o (options p)) by (inversion D as [? ? ? ? [N _]|? ? ? ? [N _]]; exact N).
  assert (M : exists args, means rf o args v) by (inversion D; eauto). destruct M as [args M]. unfold fixed_arity.
  rewrite Forall_forall in FX. destruct M as [b A|n k c s' v' A _ _ _|k c A|k c ss' vs A _ _]; [rewrite A; exact Logic.I| | |];
    apply FX; apply filter_In; (split; [exact I|rewrite A; reflexivity]).
Qed.
Theorem C80_scripts : forall (rf : string -> option R) p table name q ss l ss' l', script p table -> find_parser table name = Some q ->
  Forall2 (denotes rf (options p)) ss l -> Forall2 (denotes rf (options q)) ss' l' ->
  (complete p l -> complete q l' -> exists ns, parse_args rf p (Command table) (flat_map text ss ++ name :: flat_map text ss') = Done ns /\
     forall d, getattr ns d = either (expected q l' d) (expected p l d)) /\
  (~ complete p l \/ ~ complete q l' -> parse_args rf p (Command table) (flat_map text ss ++ name :: flat_map text ss') = Exit 2).
Proof.
  intros rf p table name q ss l ss' l' S FQ F F'. destruct (script_ok p table S) as [A [B [_ C]]]. destruct (C name q FQ) as [D [E [_ G]]].
  apply (commands_settings rf p table name q); auto. exact (script_fixed rf p table ss l S F).
Qed.
Print Assumptions C80_scripts.

Definition rf_ex (s : string) : option R := if String.eqb s "2.5" then Some 2.5%R else if String.eqb s "-0.5" then Some (-0.5)%R else None.
Lemma plain_ex s : first_is dash s = false -> plain s.
Proof. intro H. left. intros t ->. discriminate. Qed.
Ltac plains := repeat (apply Forall_cons; [first [assumption|apply plain_ex; reflexivity]|]); apply Forall_nil.
Ltac names_exact := split; [cbn; tauto|left; cbn; tauto].
(** ising_runner.py --gamma 2.5 train --out=/x --batch_size 64 128 --no_weights_normalization --batch_size 32: an abbreviated option with '=', a list, the
    last of two values. *)
Example C80_scripts_ex : exists ns, ising_args rf_ex ["--gamma"; "2.5"; "train"; "--out=/x"; "--batch_size"; "64"; "128"; "--no_weights_normalization"; "--batch_size"; "32"] = Done ns /\
  getattr ns "gamma" = Some (VFloat 2.5) /\ getattr ns "output_path" = Some (VStr "/x") /\ getattr ns "batch_size" = Some (ints [32]%Z) /\
  getattr ns "weights_normalization" = Some (VBool false) /\ getattr ns "pbc" = Some (VBool false) /\ getattr ns "depth" = Some (VInt 10) /\ getattr ns "func" = Some (VFunc "train").
Proof.
  pose (tr := training_parser "train" 10 (2 ^ 12) [100; 100; 50]%Z [2 ^ 7; 2 ^ 10; 2 ^ 13]%Z [12; 12]%Z [0.001; 0.001; 0.001]%R).
  pose (g := valued "gamma" "gamma" One KFloat VNone true). pose (out := valued "output_path" "output_path" One KStr VNone true).
  pose (b := valued "batch_size" "batch_size" OneOrMore KInt (ints [2 ^ 7; 2 ^ 10; 2 ^ 13]%Z) false). pose (nw := switch "no_weights_normalization" "weights_normalization" false true).
  destruct (C80_scripts rf_ex ising_parser ising_commands "train" tr [Spaced "--gamma" ["2.5"]] [(g, VFloat 2.5)]
    [Equals "--out" "/x"; Spaced "--batch_size" ["64"; "128"]; Spaced "--no_weights_normalization" []; Spaced "--batch_size" ["32"]]
    [(out, VStr "/x"); (b, ints [64; 128]%Z); (nw, VBool false); (b, ints [32]%Z)]) as [H _].
  - left. split; reflexivity.
  - reflexivity.
  - constructor; [|constructor]. apply denotes_spaced; [names_exact|plains|].
    apply (means_one rf_ex g One KFloat None "2.5" (VFloat 2.5) eq_refl); [discriminate|constructor; reflexivity|exact Logic.I].
  - constructor; [|constructor; [|constructor; [|constructor; [|constructor]]]].
    + apply denotes_equals; [|discriminate|apply (means_one rf_ex out One KStr None "/x" (VStr "/x") eq_refl); [discriminate|constructor|exact Logic.I]].
      split; [cbn; tauto|]. right. split; [cbn; intuition discriminate|]. split; [exists "o"%char, "ut"; reflexivity|]. exists "--output_path". split; [cbn; tauto|]. split; [exists "put_path"; reflexivity|].
      intros f I [r E]. subst f. cbn in I. repeat (destruct I as [I|I]; [try discriminate I; exact (eq_sym I)|]). destruct I.
    + apply denotes_spaced; [names_exact|plains|]. apply (means_many rf_ex b KInt None _ [VInt 64; VInt 128] eq_refl); [discriminate|]. repeat constructor.
    + apply denotes_spaced; [names_exact|constructor|]. apply (means_switch rf_ex nw false eq_refl).
    + apply denotes_spaced; [names_exact|plains|]. apply (means_many rf_ex b KInt None _ [VInt 32] eq_refl); [discriminate|]. repeat constructor.
  - destruct H as [ns [E G]].
    + intros o I R. cbn in I. destruct I as [<-|[<-|[<-|[<-|[]]]]]; try discriminate R. left. reflexivity.
    + intros o I R. cbn in I. repeat (destruct I as [<-|I]; [try discriminate R; left; reflexivity|]). destruct I.
    + exists ns. split; [exact E|]. rewrite !G. repeat split; reflexivity.
Qed.

(** The commands of experiments/README.md give the configurations of RunnerModel.v, for every path and every number. *)
Theorem C80_documented : forall (rf : string -> option R) path s g, plain path -> plain s -> rf s = Some g ->
  (exists ns, ising_args rf ["--gamma"; s; "train"; "--output_path"; path] = Done ns /\ config_of ns None = Some (ising_train g) /\ getattr ns "output_path" = Some (VStr path)) /\
  (exists ns, ising_args rf ["--gamma"; s; "eval"; "--weights_path"; path] = Done ns /\ config_of ns None = Some (ising_eval g) /\ getattr ns "weights_path" = Some (VStr path)) /\
  (exists ns, heisenberg_args rf ["train"; "--output_path"; path] = Done ns /\ config_of ns None = Some heisenberg_train /\ getattr ns "output_path" = Some (VStr path)) /\
  (exists ns, heisenberg_args rf ["eval"; "--weights_path"; path] = Done ns /\ config_of ns None = Some heisenberg_eval /\ getattr ns "weights_path" = Some (VStr path)) /\
  forall n, exists ns, heisenberg_args rf ["train"; "--output_path"; path; "--use_horovod"] = Done ns /\ option_map workers (config_of ns (Some n)) = Some (Some n).
Proof.
  intros rf path s g PP PS G.
  assert (DG : Forall2 (denotes rf (options ising_parser)) [Spaced "--gamma" [s]] [(valued "gamma" "gamma" One KFloat VNone true, VFloat g)]).
  { constructor; [|constructor]. apply denotes_spaced; [names_exact|plains|]. eapply means_one; [reflexivity|discriminate|constructor; exact G|exact Logic.I]. }
  assert (CG : complete ising_parser [(valued "gamma" "gamma" One KFloat VNone true, VFloat g)]).
  { intros o I R. cbn in I. destruct I as [<-|[<-|[<-|[<-|[]]]]]; try discriminate R. left. reflexivity. }
  assert (CH : complete heisenberg_parser []) by (intros o I R; cbn in I; destruct I as [<-|[<-|[<-|[]]]]; discriminate R).
  assert (DP : forall os d f, In (valued f d One KStr VNone true) os -> Forall2 (denotes rf os) [Spaced ("--" ++ f)%string [path]] [(valued f d One KStr VNone true, VStr path)]).
  { intros os d f I. constructor; [|constructor]. apply denotes_spaced; [split; [exact I|left; left; reflexivity]|plains|]. eapply means_one; [reflexivity|discriminate|constructor|exact Logic.I]. }
  pose (it := training_parser "train" 10 (2 ^ 12) [100; 100; 50]%Z [2 ^ 7; 2 ^ 10; 2 ^ 13]%Z [12; 12]%Z [0.001; 0.001; 0.001]%R).
  pose (ht := training_parser "train" 20 (2 ^ 11) [80; 370]%Z [2 ^ 10; 2 ^ 11]%Z [10; 10]%Z [0.001; 0.001]%R).
  pose (ie := evaluation_parser "run" 10 (2 ^ 8) [12; 12]%Z). pose (he := evaluation_parser "run" 20 (2 ^ 7) [10; 10]%Z).
  split; [|split; [|split; [|split]]].
  - destruct (C80_scripts rf ising_parser ising_commands "train" it _ _ _ _ (or_introl (conj eq_refl eq_refl)) eq_refl DG (DP (options it) "output_path" "output_path" ltac:(cbn; tauto))) as [H _].
    destruct (H CG) as [ns [E X]]; [intros o I R; cbn in I; repeat (destruct I as [<-|I]; [try discriminate R; left; reflexivity|]); destruct I|].
    exists ns. split; [exact E|]. split; [|rewrite X; reflexivity]. unfold config_of. rewrite !X. reflexivity.
  - destruct (C80_scripts rf ising_parser ising_commands "eval" ie _ _ _ _ (or_introl (conj eq_refl eq_refl)) eq_refl DG (DP (options ie) "weights_path" "weights_path" ltac:(cbn; tauto))) as [H _].
    destruct (H CG) as [ns [E X]]; [intros o I R; cbn in I; repeat (destruct I as [<-|I]; [try discriminate R; left; reflexivity|]); destruct I|].
    exists ns. split; [exact E|]. split; [|rewrite X; reflexivity]. unfold config_of. rewrite !X. reflexivity.
  - destruct (C80_scripts rf heisenberg_parser heisenberg_commands "train" ht [] [] _ _ (or_intror (conj eq_refl eq_refl)) eq_refl (Forall2_nil _) (DP (options ht) "output_path" "output_path" ltac:(cbn; tauto))) as [H _].
    destruct (H CH) as [ns [E X]]; [intros o I R; cbn in I; repeat (destruct I as [<-|I]; [try discriminate R; left; reflexivity|]); destruct I|].
    exists ns. split; [exact E|]. split; [|rewrite X; reflexivity]. unfold config_of. rewrite !X. reflexivity.
  - destruct (C80_scripts rf heisenberg_parser heisenberg_commands "eval" he [] [] _ _ (or_intror (conj eq_refl eq_refl)) eq_refl (Forall2_nil _) (DP (options he) "weights_path" "weights_path" ltac:(cbn; tauto))) as [H _].
    destruct (H CH) as [ns [E X]]; [intros o I R; cbn in I; repeat (destruct I as [<-|I]; [try discriminate R; left; reflexivity|]); destruct I|].
    exists ns. split; [exact E|]. split; [|rewrite X; reflexivity]. unfold config_of. rewrite !X. reflexivity.
  - intro n.
    assert (DH : Forall2 (denotes rf (options (training_parser "train" 20 (2 ^ 11) [80; 370]%Z [2 ^ 10; 2 ^ 11]%Z [10; 10]%Z [0.001; 0.001]%R)))
      [Spaced "--output_path" [path]; Spaced "--use_horovod" []] [(valued "output_path" "output_path" One KStr VNone true, VStr path); (switch "use_horovod" "use_horovod" true false, VBool true)]).
    { constructor; [pose proof (DP (options (training_parser "train" 20 (2 ^ 11) [80; 370]%Z [2 ^ 10; 2 ^ 11]%Z [10; 10]%Z [0.001; 0.001]%R)) "output_path" "output_path" ltac:(cbn; tauto)) as Y; inversion Y; assumption|]. constructor; [|constructor]. apply denotes_spaced; [names_exact|constructor|]. apply means_switch. reflexivity. }
    destruct (C80_scripts rf heisenberg_parser heisenberg_commands "train" _ [] [] _ _ (or_intror (conj eq_refl eq_refl)) eq_refl (Forall2_nil _) DH) as [H _].
    destruct (H CH) as [ns [E X]]; [intros o I R; cbn in I; repeat (destruct I as [<-|I]; [try discriminate R; left; reflexivity|]); destruct I|].
    exists ns. split; [exact E|]. unfold config_of. rewrite !X. reflexivity.
Qed.
Print Assumptions C80_documented.
Example C80_documented_ex : plain "weights/ising_2_5.h5" /\ plain "-0.5" /\ rf_ex "-0.5" = Some (-0.5)%R.
Proof. split; [apply plain_ex; reflexivity|]. split; [|reflexivity]. right. exists "0", "5". repeat split; [repeat constructor; exists 0; split; [lia|reflexivity]|repeat constructor; exists 5; split; [lia|reflexivity]|discriminate|right; reflexivity]. Qed.

(** What can come out: whatever is written on the command line, an accepted one gives every attribute of the parser a value of its type (or a
    default); required ones were given; and the same for the subcommand, if there is one. *)
Theorem C80_values : forall (rf : string -> option R) p table args ns, script p table -> parse_args rf p (Command table) args = Done ns ->
  obeys p ns /\
  ((forall d, getattr ns d <> None -> default_value p d <> None) \/
   exists name q, In (name, q) table /\ obeys q ns /\ forall d, getattr ns d <> None -> default_value p d <> None \/ default_value q d <> None).
Proof.
  intros rf p table args ns S H. destruct (script_ok p table S) as [A [_ [_ C]]].
  destruct (commands_sound rf p table args ns A) as [O [X|[name [q [F [OQ X]]]]]]; [|exact H| |].
  - intros name q F. destruct (C name q F) as [D [_ [E _]]]. split; assumption.
  - split; [exact O|left; exact X].
  - split; [exact O|right]. exists name, q. split; [|split; assumption].
    clear - F. induction table as [|[n r] t IH]; [discriminate|]. cbn in F. destruct (String.eqb_spec n name) as [->|_]; [injection F as ->; left; reflexivity|right; apply IH, F].
Qed.
Print Assumptions C80_values.

(** The Ising script: gamma is a number, or the empty list (from "--gamma=--"); there may be no subcommand, and then nothing to run. *)
Theorem C80_gamma : forall (rf : string -> option R) args ns, ising_args rf args = Done ns ->
  ((exists g, getattr ns "gamma" = Some (VFloat g)) \/ getattr ns "gamma" = Some (VList [])) /\
  (exists b, getattr ns "pbc" = Some (VBool b)) /\
  (getattr ns "func" = None \/ getattr ns "func" = Some (VFunc "train") \/ getattr ns "func" = Some (VFunc "run")).
Proof.
  intros rf args ns H. destruct (C80_values rf ising_parser ising_commands args ns (or_introl (conj eq_refl eq_refl)) H) as [[O1 O2] R]. split; [|split].
  - destruct (O2 (valued "gamma" "gamma" One KFloat VNone true)) as [o' [v [I [D [S G]]]]]; [cbn; tauto|reflexivity|]. cbn [dest valued] in D, G. rewrite G.
    cbn in I. destruct I as [<-|[<-|[<-|[<-|[]]]]]; try discriminate D. cbn in S. destruct S as [[T _]| ->]; [|right; reflexivity]. destruct v; try destruct T. left. eexists. reflexivity.
  - destruct (O1 "pbc") as [v [G P]]; [discriminate|]. rewrite G. destruct P as [P|[o [I [D S]]]].
    + injection P as <-. eexists. reflexivity.
    + cbn in I. destruct I as [<-|[<-|[<-|[<-|[]]]]]; try discriminate D; cbn in S; subst v; eexists; reflexivity.
  - destruct (getattr ns "func") as [v|] eqn:G; [right|left; reflexivity]. destruct R as [R|[name [q [I [[OQ _] _]]]]]; [destruct (R "func"); [congruence|reflexivity]|].
    assert (X : forall f, default_value q "func" = Some (VFunc f) -> (forall o, In o (options q) -> dest o <> "func") -> v = VFunc f).
    { intros f DF N. destruct (OQ "func") as [w [W P]]; [congruence|]. rewrite G in W. injection W as <-. destruct P as [P|[o [IO [D _]]]]; [congruence|destruct (N o IO D)]. }
    cbn in I. destruct I as [E|[E|[]]]; injection E as <- <-; [left|right]; f_equal; apply X; try reflexivity; intros o IO D; cbn in IO;
      repeat (destruct IO as [<-|IO]; [discriminate D|]); destruct IO.
Qed.
Print Assumptions C80_gamma.
Example C80_gamma_ex : (exists ns, ising_args rf_ex ["--gamma=--"; "--use_pbc"; "train"; "--output_path"; "x"] = Done ns /\ getattr ns "gamma" = Some (VList [])) /\
  exists ns, ising_args rf_ex ["--gamma"; "-0.5"] = Done ns /\ getattr ns "gamma" = Some (VFloat (-0.5)) /\ getattr ns "func" = None.
Proof. split; eexists; (split; [reflexivity|]); repeat split; reflexivity. Qed.

(** Options of the script itself only count before the subcommand. Written after it they are not accepted; nor is a command line whose
    required options are not all before the subcommand. *)
Theorem C80_late_refuted : forall (rf : string -> option R) p table name q ss l, script p table -> find_parser table name = Some q ->
  Forall2 (denotes rf (options p)) ss l ->
  (forall rest ns, ~ complete p l -> parse_args rf p (Command table) (flat_map text ss ++ name :: rest) <> Done ns) /\
  (forall ss' l' x rest ns, Forall2 (denotes rf (options q)) ss' l' -> In x ["--gamma"; "--use_pbc"; "--no_pbc"] ->
     parse_args rf p (Command table) (flat_map text ss ++ name :: flat_map text ss' ++ x :: rest) <> Done ns).
Proof.
  intros rf p table name q ss l S FQ F. destruct (script_ok p table S) as [A [_ [_ C]]]. destruct (C name q FQ) as [D [_ [_ NN]]]. pose proof (script_fixed rf p table ss l S F) as FA. split.
  - intros rest ns NC. apply (incomplete_refused rf p table name rest ss l); assumption.
  - intros ss' l' x rest ns F' X. apply (unknown_refused rf p table name q ss l ss' l'); try assumption.
    + cbn in X. destruct X as [<-|[<-|[<-|[]]]]; do 2 eexists; reflexivity.
    + cbn in X. destruct X as [<-|[<-|[<-|[]]]]; cbn; intuition discriminate.
    + cbn in X. destruct X as [<-|[<-|[<-|[]]]]; cbn; intuition discriminate.
    + intros g I r E. subst g. destruct S as [[-> ->]|[-> ->]];
        (cbn -[String.eqb training_parser evaluation_parser] in FQ; destruct (String.eqb_spec "train" name) as [<-|_]; [injection FQ as <-|destruct (String.eqb_spec "eval" name) as [<-|_]; [injection FQ as <-|discriminate]]);
        cbn in X; destruct X as [<-|[<-|[<-|[]]]]; cbn in I; repeat (destruct I as [I|I]; [discriminate I|]); destruct I.
Qed.
Print Assumptions C80_late_refuted.
Example C80_late_ex : ising_args rf_ex ["train"; "--output_path"; "x"; "--gamma"; "2.5"] = Exit 2 /\ heisenberg_args rf_ex ["train"; "--output_path"; "x"; "--use_pbc"] = Exit 2 /\
  exists ns, heisenberg_args rf_ex ["--use_pbc"; "train"; "--output_path"; "x"] = Done ns /\ getattr ns "pbc" = Some (VBool true).
Proof. split; [reflexivity|]. split; [reflexivity|]. eexists. split; reflexivity. Qed.

(** An ambiguous abbreviation, for any parser, and an argument that an option cannot take: an error message. *)
Theorem C80_ambiguous : forall (rf : string -> option R) p pos pre w post, flags_ok (options p) -> ambiguous (options p) w -> ~ In "--" pre ->
  parse_args rf p pos (pre ++ w :: post) = Exit 2.
Proof.
  intros rf p pos pre w post OK AM NP. assert (NW : w <> "--") by (destruct AM as [_ [_ [[c [t ->]] _]]]; discriminate).
  unfold parse_args, parse_known. cbv zeta. set (p' := match pos with Choice _ _ => _ | _ => p end).
  assert (E : options p' = options p) by (unfold p'; destruct pos; reflexivity). rewrite E.
  rewrite (classify_exit (options p) pre w post NP NW (ambiguous_exit (options p) w OK AM)). reflexivity.
Qed.
Print Assumptions C80_ambiguous.
Example C80_ambiguous_ex : ambiguous (options (evaluation_parser "run" 10 8 [3; 3]%Z)) "--w".
Proof.
  split; [cbn; intuition discriminate|]. split; [cbn; intuition discriminate|]. split; [do 2 eexists; reflexivity|]. exists "--weights_path", "--width".
  split; [discriminate|]. split; [cbn; tauto|]. split; [cbn; tauto|]. split; eexists; reflexivity.
Qed.

Theorem C80_bad_value : forall (rf : string -> option R) p ss l w o args ss' l', flags_ok (options p) -> Forall2 (denotes rf (options p)) ss l -> names (options p) w o ->
  Forall plain args -> unreadable rf o args -> Forall2 (denotes rf (options p)) ss' l' ->
  parse_args rf p NoPositional (flat_map text ss ++ (w :: args) ++ flat_map text ss') = Exit 2.
Proof. intros. eapply bad_value_exit; eassumption. Qed.
Print Assumptions C80_bad_value.
(** examples/ising.py --gamma 2.5 --depth x, and a gamma that is none of the five. *)
Example C80_bad_value_ex : example_args rf_ex ["--gamma"; "2.5"; "--depth"; "x"] = Exit 2 /\
  unreadable (fun _ => Some 7%R) {| flags := ["--gamma"]; dest := "gamma"; act := Store One KFloat (Some [VFloat 2; VFloat 2.5; VFloat 3; VFloat 3.5; VFloat 4]);
          default := VNone; required := false |} ["7"].
Proof.
  split.
  - pose (g := {| flags := ["--gamma"]; dest := "gamma"; act := Store One KFloat (Some [VFloat 2; VFloat 2.5; VFloat 3; VFloat 3.5; VFloat 4]); default := VNone; required := false |}).
    refine (C80_bad_value rf_ex example_parser [Spaced "--gamma" ["2.5"]] [(g, VFloat 2.5)] "--depth" (valued "depth" "depth" One KInt (VInt 20) false) ["x"] [] [] _ _ _ _ _ (Forall2_nil _)).
    + apply flags_okb_ok. vm_compute. reflexivity.
    + constructor; [|constructor]. apply denotes_spaced; [names_exact|plains|]. eapply means_one; [reflexivity|discriminate|constructor; reflexivity|cbn; tauto].
    + names_exact.
    + plains.
    + exists "x". split; [reflexivity|]. intros v R. inversion R as [? ? E| |]. discriminate E.
  - exists "7". split; [reflexivity|]. intros v R. inversion R as [|? ? E|]; subst. injection E as <-. cbn. intros [X|[X|[X|[X|[X|[]]]]]]; injection X as X; lra.
Qed.

(** The numbers of int options: digits, possibly with a sign. *)
Theorem C80_integers : forall (rf : string -> option R) ds, Forall (fun n => n < 10) ds -> ds <> [] ->
  let s := string_of_list_ascii (map (fun n => ascii_of_nat (48 + n)) ds) in
  let z := fold_left (fun a n => 10 * a + Z.of_nat n)%Z ds 0%Z in
  convert rf KInt s = Some (VInt z) /\ convert rf KInt (String "-" s) = Some (VInt (- z)) /\ convert rf KInt (String "+" s) = Some (VInt z).
Proof. intros rf ds F N s z. destruct (int_of_digits ds F N) as [A [B C]]. fold s z in A, B, C. unfold convert. rewrite A, B, C. repeat split; reflexivity. Qed.
Print Assumptions C80_integers.
Example C80_integers_ex : convert rf_ex KInt "128" = Some (VInt 128) /\ convert rf_ex KInt "12.5" = None.
Proof.
  split; [|reflexivity]. destruct (C80_integers rf_ex [1; 2; 8]) as [A _]; [repeat constructor; lia|discriminate|exact A].
Qed.

(** C80: an underscore is accepted between two digits only: at the end, or next to another one, it makes the argument invalid. *)
Lemma underscore_end s acc d : digits_value acc d (s ++ "_") = None.
Proof.
  revert acc d. induction s as [|c s IH]; intros acc d; cbn [String.append digits_value].
  - change (is_digit "_"%char) with false. cbv iota. destruct (_ && d); reflexivity.
  - destruct (is_digit c); [apply IH|]. destruct (_ && d); [apply IH|reflexivity].
Qed.
Lemma underscore_twice a b acc d : digits_value acc d (a ++ "__" ++ b) = None.
Proof.
  revert acc d. induction a as [|c s IH]; intros acc d; cbn [String.append digits_value].
  - change (is_digit "_"%char) with false. cbv iota. destruct (_ && d); [|reflexivity]. rewrite andb_false_r. reflexivity.
  - destruct (is_digit c); [apply IH|]. destruct (_ && d); [apply IH|reflexivity].
Qed.
Lemma strip_left_around a c t : is_blank c = false -> exists a', strip_left (a ++ String c t) = (a' ++ String c t)%string.
Proof.
  intros B. induction a as [|x a IH]; cbn [String.append strip_left]; [rewrite B; exists ""; reflexivity|]. destruct (is_blank x); [exact IH|]. exists (String x a). reflexivity.
Qed.
Lemma strip_right_around a c t : is_blank c = false -> exists t', strip_right (a ++ String c t) = (a ++ String c (strip_right t))%string /\ t' = strip_right t.
Proof.
  intros B. exists (strip_right t). split; [|reflexivity]. induction a as [|x a IH]; cbn [String.append strip_right]; [rewrite B; reflexivity|]. rewrite IH.
  replace (String.eqb (a ++ String c (strip_right t)) "") with false by (destruct a; reflexivity). rewrite andb_false_r. reflexivity.
Qed.
Theorem C80_underscores : forall (rf : string -> option R) a b, convert rf KInt (a ++ "_") = None /\ convert rf KInt (a ++ "__" ++ b) = None.
Proof.
  intros rf a b. unfold convert, int_of_string. split.
  - destruct (strip_left_around a "_"%char "" eq_refl) as [a' E]. rewrite E. destruct (strip_right_around a' "_"%char "" eq_refl) as [t' [F _]]. rewrite F. cbn [strip_right].
    destruct a' as [|c a']; [reflexivity|]. cbn [String.append]. change (String c (a' ++ "_")) with ((String c a') ++ "_")%string. rewrite !underscore_end. destruct (Ascii.eqb c dash), (Ascii.eqb c "+"%char); reflexivity.
  - destruct (strip_left_around a "_"%char ("_" ++ b) eq_refl) as [a' E]. change ("__" ++ b)%string with (String "_"%char ("_" ++ b)). rewrite E.
    destruct (strip_right_around a' "_"%char ("_" ++ b) eq_refl) as [t' [F _]]. rewrite F. destruct (strip_right_around "" "_"%char b eq_refl) as [t'' [G _]]. cbn [String.append] in G. change ("_" ++ b)%string with (String "_"%char b). rewrite G.
    destruct a' as [|c a']; [reflexivity|]. cbn [String.append]. change (String c (a' ++ String "_" (String "_" (strip_right b)))) with (String c a' ++ "__" ++ strip_right b)%string.
    change (String "_" (String "_" (strip_right b))) with ("__" ++ strip_right b)%string. rewrite !underscore_twice. destruct (Ascii.eqb c dash), (Ascii.eqb c "+"%char); reflexivity.
Qed.
Print Assumptions C80_underscores.
Example C80_underscores_ex : convert rf_ex KInt "1_000" = Some (VInt 1000) /\ convert rf_ex KInt "1__000" = None /\ convert rf_ex KInt "1_" = None.
Proof. repeat split; reflexivity. Qed.

(** config.json: after an accepted command line for training the keys are the attributes in order, without func; a single batch size or learning
    rate is written as a list of lists; and stages that do not fit stop the program before anything is written. *)
Lemma serialisable_values p d v : forallb (fun o => serialisable (default o)) (options p) = true -> forallb (fun c => String.eqb (fst c) "func" || serialisable (snd c)) (constants p) = true ->
  d <> "func" -> possible p d v -> serialisable v = true.
Proof.
  intros SO SC ND. rewrite forallb_forall in SO, SC. intros [D|[o [I [_ S]]]].
  - unfold default_value in D. destruct (find _ (options p)) as [o|] eqn:E.
    + injection D as <-. apply find_some in E. apply SO, E.
    + destruct (find (fun c => String.eqb (fst c) d) (constants p)) as [c|] eqn:F; [|discriminate]. injection D as <-. apply find_some in F. destruct F as [I F]. apply String.eqb_eq in F.
      specialize (SC c I). apply orb_true_iff in SC. destruct SC as [SC|SC]; [|exact SC]. apply String.eqb_eq in SC. congruence.
  - assert (T : forall k x, typed k x -> serialisable x = true) by (intros k x; destruct k, x; cbn; try tauto; reflexivity).
    unfold storable in S. destruct (act o) as [[| |] k c|b|]; [| | |subst v; reflexivity|destruct S].
    + destruct S as [[S _]| ->]; [exact (T k v S)|reflexivity].
    + destruct S as [[S _]| ->]; [exact (T k v S)|reflexivity].
    + destruct S as [vs [-> S]]. cbn. apply forallb_forall. intros x X. rewrite Forall_forall in S. exact (T k x (proj1 (S x X))).
Qed.
Lemma list_attribute p d ns : obeys p ns -> (exists k c, forall o, In o (options p) -> dest o = d -> act o = Store OneOrMore k c) -> (exists l, default_value p d = Some (VList l)) ->
  exists l, getattr ns d = Some (VList l).
Proof.
  intros [O _] [k [c A]] [l D]. destruct (O d) as [v [G P]]; [congruence|]. rewrite G. destruct P as [P|[o [I [E S]]]]; [rewrite D in P; injection P as <-; eexists; reflexivity|].
  unfold storable in S. rewrite (A o I E) in S. destruct S as [vs [-> _]]. eexists. reflexivity.
Qed.
Theorem C80_config_file : forall (rf : string -> option R) p table args ns, script p table -> parse_args rf p (Command table) args = Done ns -> getattr ns "func" = Some (VFunc "train") ->
  exists b e l, getattr ns "batch_size" = Some (VList b) /\ getattr ns "num_epoch" = Some (VList e) /\ getattr ns "learning_rate" = Some (VList l) /\
    (compatible b e -> compatible l e -> forall path, getattr ns "output_path" = Some (VStr path) ->
       exists file, config_file ns = Ok file /\ ordered (map fst file) /\ forall d, getattr file d = stages_file ns b e l d) /\
    (~ compatible b e \/ ~ compatible l e -> config_file ns = Err AssertionError).
Proof.
  intros rf p table args ns S H G. pose proof (parse_args_nodup rf p (Command table) args ns H) as ND.
  destruct (C80_values rf p table args ns S H) as [OP [X|[name [q [I [OQ DOM]]]]]].
  { exfalso. apply (X "func"); [congruence|]. destruct S as [[-> ->]|[-> ->]]; reflexivity. }
  assert (Q : exists dp m es bs hs ls, q = training_parser "train" dp m es bs hs ls).
  { destruct S as [[-> ->]|[-> ->]]; cbn in I; destruct I as [E|[E|[]]]; injection E as <- <-; try (do 6 eexists; reflexivity); exfalso;
      (destruct OQ as [OQ _]; destruct (OQ "func") as [v [GV P]]; [discriminate|]; rewrite G in GV; injection GV as <-; destruct P as [P|[o [IO [D _]]]]; [discriminate P|];
       cbn in IO; repeat (destruct IO as [<-|IO]; [discriminate D|]); destruct IO). }
  destruct Q as [dp [m [es [bs [hs [ls ->]]]]]].
  assert (L : forall d k, (forall o, In o (options (training_parser "train" dp m es bs hs ls)) -> dest o = d -> act o = Store OneOrMore k None) ->
    (exists l, default_value (training_parser "train" dp m es bs hs ls) d = Some (VList l)) -> exists l, getattr ns d = Some (VList l)).
  { intros d k A D. apply (list_attribute _ d ns OQ); [exists k, None; exact A|exact D]. }
  assert (LB : exists l, getattr ns "batch_size" = Some (VList l)).
  { apply (L "batch_size" KInt); [|eexists; reflexivity]. intros o IO D. cbn in IO. repeat (destruct IO as [<-|IO]; [first [discriminate D|reflexivity]|]). destruct IO. }
  assert (LE : exists l, getattr ns "num_epoch" = Some (VList l)).
  { apply (L "num_epoch" KInt); [|eexists; reflexivity]. intros o IO D. cbn in IO. repeat (destruct IO as [<-|IO]; [first [discriminate D|reflexivity]|]). destruct IO. }
  assert (LL : exists l, getattr ns "learning_rate" = Some (VList l)).
  { apply (L "learning_rate" KFloat); [|eexists; reflexivity]. intros o IO D. cbn in IO. repeat (destruct IO as [<-|IO]; [first [discriminate D|reflexivity]|]). destruct IO. }
  destruct LB as [b B], LE as [e E], LL as [l LL]. exists b, e, l. split; [exact B|]. split; [exact E|]. split; [exact LL|].
  apply (config_file_ok ns b e l ND B E LL). intros d v NF GD.
  assert (SI : forall l, forallb serialisable (map VInt l) = true) by (intro x; induction x; [reflexivity|exact IHx]).
  assert (SF : forall l, forallb serialisable (map VFloat l) = true) by (intro x; induction x; [reflexivity|exact IHx]).
  destruct (DOM d) as [D|D]; [congruence| |].
  - destruct OP as [OP _]. destruct (OP d D) as [w [GW P]]. rewrite GD in GW. injection GW as <-. apply (serialisable_values p d v); try assumption; destruct S as [[-> ->]|[-> ->]]; reflexivity.
  - destruct OQ as [OQ _]. destruct (OQ d D) as [w [GW P]]. rewrite GD in GW. injection GW as <-. apply (serialisable_values (training_parser "train" dp m es bs hs ls) d v); try assumption.
    + cbn. rewrite !SI, !SF. reflexivity.
    + reflexivity.
Qed.
Print Assumptions C80_config_file.
Example C80_config_file_ex : exists ns file, heisenberg_args rf_ex ["train"; "--output_path"; "x"; "--batch_size"; "64"; "--use_horovod"] = Done ns /\ getattr ns "func" = Some (VFunc "train") /\
  config_file ns = Ok file /\ getattr file "batch_size" = Some (VList [ints [64]%Z; ints [64]%Z]) /\ getattr file "num_epoch" = Some (ints [80; 370]%Z) /\
  map fst file = ["batch_size"; "depth"; "hilbert_state_shape"; "learning_rate"; "mini_batch_size"; "num_epoch"; "output_path"; "pbc"; "steps_per_epoch"; "use_horovod"; "validation_period"; "weights_normalization"; "width"].
Proof. do 2 eexists. split; [vm_compute; reflexivity|]. split; [vm_compute; reflexivity|]. split; [vm_compute; reflexivity|]. split; [vm_compute; reflexivity|]. split; vm_compute; reflexivity. Qed.
Example C80_config_file_ex2 : exists ns, heisenberg_args rf_ex ["train"; "--output_path"; "x"; "--num_epoch"; "1"; "2"; "3"] = Done ns /\ config_file ns = Err AssertionError.
Proof. eexists. split; vm_compute; reflexivity. Qed.

(** For configurations that do not come from the command line: an attribute of the stages that is missing, or a plain number, and a missing output path raise. *)
Theorem C80_config_errors : forall ns,
  (forall before d after, ["batch_size"; "num_epoch"; "learning_rate"] = before ++ d :: after -> (forall x, In x before -> exists l, getattr ns x = Some (VList l)) ->
     (getattr ns d = None -> config_file ns = Err AttributeError) /\ (forall z, getattr ns d = Some (VInt z) -> config_file ns = Err TypeError)) /\
  (forall b e l, getattr ns "batch_size" = Some (VList b) -> getattr ns "num_epoch" = Some (VList e) -> getattr ns "learning_rate" = Some (VList l) ->
     length b = length e -> length l = length e -> length e <> 1 -> NoDup (map fst ns) -> getattr ns "output_path" = None -> config_file ns = Err AttributeError).
Proof.
  intros ns. split.
  - intros before d after E H. unfold config_file, valid_stages. destruct before as [|x1 [|x2 [|x3 before]]]; cbn [app] in E; injection E as; subst.
    + split; [intros ->; reflexivity|intros z ->; reflexivity].
    + destruct (H "batch_size" (or_introl eq_refl)) as [l1 ->]. cbn [as_list bind]. split; [intros ->; reflexivity|intros z ->; reflexivity].
    + destruct (H "batch_size" (or_introl eq_refl)) as [l1 ->]. destruct (H "num_epoch" (or_intror (or_introl eq_refl))) as [l2 ->]. cbn [as_list bind]. split; [intros ->; reflexivity|intros z ->; reflexivity].
    + destruct before; discriminate.
  - intros b e l B E L LB LL N1 ND P. unfold config_file, valid_stages. rewrite B, E, L. cbn [as_list bind]. unfold nested. rewrite LB, LL. rewrite (proj2 (Nat.eqb_neq _ _) N1), LB, LL, Nat.eqb_refl. cbn [andb bind]. unfold save_config.
    set (ns' := match getattr ns "func" with Some _ => delattr "func" ns | None => ns end). assert (G : getattr ns' "output_path" = None).
    { unfold ns'. destruct (getattr ns "func"); [|exact P]. destruct (delattr_ok "func" ns ND) as [_ [_ Q]]. rewrite Q. exact P. }
    rewrite G. reflexivity.
Qed.
Print Assumptions C80_config_errors.
Example C80_config_errors_ex : config_file [("batch_size", VList [VInt 1; VInt 2]); ("num_epoch", VInt 3)] = Err TypeError.
Proof. reflexivity. Qed.

(** examples/benchmark.py: the framework first, then the options. *)
Theorem C80_benchmark : forall (rf : string -> option R) framework ss l, In framework ["flowket"; "netket"] -> Forall2 (denotes rf (options benchmark_parser)) ss l ->
  exists ns, benchmark_args rf (framework :: flat_map text ss) = Done ns /\
    forall d, getattr ns d = if String.eqb "framework" d then Some (VStr framework) else expected benchmark_parser l d.
Proof.
  intros rf framework ss l I F. apply choice_settings; try assumption.
  - apply flags_okb_ok. vm_compute. reflexivity.
  - intros t E. subst. cbn in I. destruct I as [I|[I|[]]]; discriminate I.
  - intros o IO R. cbn in IO. repeat (destruct IO as [<-|IO]; [discriminate R|]). destruct IO.
  - intros o IO. cbn in IO. repeat (destruct IO as [<-|IO]; [discriminate|]). destruct IO.
Qed.
Print Assumptions C80_benchmark.
Example C80_benchmark_ex : exists ns, benchmark_args rf_ex ["netket"; "-b"; "64"; "-sr"; "-depth"; "3"] = Done ns /\
  getattr ns "framework" = Some (VStr "netket") /\ getattr ns "batch_size" = Some (VInt 64) /\ getattr ns "use_stochastic_reconfiguration" = Some (VBool true) /\
  getattr ns "depth" = Some (VInt 3) /\ getattr ns "width" = Some (VInt 4).
Proof.
  destruct (C80_benchmark rf_ex "netket" [Spaced "-b" ["64"]; Spaced "-sr" []; Spaced "-depth" ["3"]]
    [(benchmark_option ["-batch_size"; "-b"] "batch_size" KInt (VInt 1000), VInt 64); (benchmark_switch ["-use_stochastic_reconfiguration"; "-sr"] "use_stochastic_reconfiguration", VBool true);
     (benchmark_option ["-depth"; "-d"] "depth" KInt (VInt 2), VInt 3)]) as [ns [E G]].
  - cbn; tauto.
  - constructor; [|constructor; [|constructor; [|constructor]]].
    + apply denotes_spaced; [names_exact|plains|]. eapply means_one; [reflexivity|discriminate|constructor; reflexivity|exact Logic.I].
    + apply denotes_spaced; [names_exact|plains|]. apply means_switch. reflexivity.
    + apply denotes_spaced; [names_exact|plains|]. eapply means_one; [reflexivity|discriminate|constructor; reflexivity|exact Logic.I].
  - exists ns. split; [exact E|]. rewrite !G. repeat split; reflexivity.
Qed.
(** Its options with a value may go without one: then the value is None, not the default; and before the framework such an option takes the
    framework for its value. *)
Theorem C80_benchmark_default_refuted : forall (rf : string -> option R) o f k c framework, In o (options benchmark_parser) -> act o = Store Optional k c -> In f (flags o) ->
  In framework ["flowket"; "netket"] -> rf framework = None ->
  (exists ns, benchmark_args rf [framework; f] = Done ns /\ getattr ns (dest o) = Some VNone /\ default o <> VNone) /\ benchmark_args rf [f; framework] = Exit 2.
Proof.
  intros rf o f k c framework I A IF FW N. split.
  - destruct (C80_benchmark rf framework [Spaced f []] [(o, VNone)] FW) as [ns [E G]].
    + constructor; [|constructor]. apply denotes_spaced; [split; [exact I|left; exact IF]|constructor|]. eapply means_none. exact A.
    + exists ns. split; [exact E|]. rewrite G. unfold expected. cbn [assigned]. rewrite String.eqb_refl. cbn [either].
      cbn in I. repeat (destruct I as [<-|I]; [first [discriminate A|split; [reflexivity|discriminate]]|]). destruct I.
  - cbn in I. cbn in FW. destruct FW as [<-|[<-|[]]];
      repeat (destruct I as [<-|I]; [first [discriminate A|cbn in IF; repeat (destruct IF as [<-|IF]; [first [reflexivity|vm_compute; vm_compute in N; rewrite N; reflexivity]|]); destruct IF]|]); destruct I.
Qed.
Print Assumptions C80_benchmark_default_refuted.
Example C80_benchmark_default_ex : benchmark_args rf_ex ["-l"; "flowket"] = Exit 2 /\ benchmark_args rf_ex ["-batch_size"; "netket"] = Exit 2.
Proof. split; reflexivity. Qed.

(** examples/ising.py: gamma is one of five numbers, but it need not be given. *)
Theorem C80_example_gamma : forall (rf : string -> option R) args ns, example_args rf args = Done ns -> exists v, getattr ns "gamma" = Some v /\
  In v [VNone; VList []; VFloat 2; VFloat 2.5; VFloat 3; VFloat 3.5; VFloat 4].
Proof.
  intros rf args ns H. destruct (single_sound rf example_parser args ns) as [[O _] _]; [apply flags_okb_ok; vm_compute; reflexivity|exact H|].
  destruct (O "gamma") as [v [G P]]; [discriminate|]. exists v. split; [exact G|]. destruct P as [P|[o [I [D S]]]]; [injection P as <-; left; reflexivity|].
  cbn in I. repeat (destruct I as [<-|I]; [try discriminate D|]); [|destruct I]. cbn in S. destruct S as [[_ S]| ->]; cbn; tauto.
Qed.
Print Assumptions C80_example_gamma.
Theorem C80_example_gamma_refuted : forall (rf : string -> option R) ss l, Forall2 (denotes rf (options example_parser)) ss l -> assigned l "gamma" = None ->
  exists ns, example_args rf (flat_map text ss) = Done ns /\ getattr ns "gamma" = Some VNone.
Proof.
  intros rf ss l F N. destruct (C80_options rf example_parser ss l) as [H _]; [apply flags_okb_ok; vm_compute; reflexivity|exact F|].
  destruct H as [ns [E G]]; [intros o I R; cbn in I; repeat (destruct I as [<-|I]; [discriminate R|]); destruct I|]. exists ns. split; [exact E|]. rewrite G. unfold expected. rewrite N. reflexivity.
Qed.
Print Assumptions C80_example_gamma_refuted.
Example C80_example_gamma_ex : exists ns, example_args rf_ex ["--depth"; "10"] = Done ns /\ getattr ns "depth" = Some (VInt 10) /\ getattr ns "gamma" = Some VNone.
Proof. eexists. repeat split; reflexivity. Qed.
