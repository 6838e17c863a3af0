(** C80: the boundary conditions that the experiment scripts are given. *)
From Coq Require Import String List ZArith Reals Bool Arith Ascii Lia.
From Verif Require Import Base StagesModel RunnerModel CommandLineModel CommandLineSpec CommandLineProofs CommandLineProps.
Import ListNotations.
Local Open Scope string_scope.
Local Open Scope list_scope.

(** The switches as they are written on the command line. *)
Definition pbc_flag (b : bool) : string := if b then "--use_pbc" else "--no_pbc".

Lemma flat_text bs : flat_map text (map (fun b => Spaced (pbc_flag b) []) bs) = map pbc_flag bs.
Proof. induction bs as [|b bs IH]; [reflexivity|]. cbn [map flat_map text app]. now rewrite IH. Qed.
Definition pbc_option (b : bool) : opt := if b then switch "use_pbc" "pbc" true false else switch "no_pbc" "pbc" false false.
Lemma flags_denote rf os bs : In (pbc_option true) os -> In (pbc_option false) os ->
  Forall2 (denotes rf os) (map (fun b => Spaced (pbc_flag b) []) bs) (map (fun b => (pbc_option b, VBool b)) bs).
Proof.
  intros T F. induction bs as [|b bs IH]; [constructor|]. cbn [map]. constructor; [|exact IH].
  apply denotes_spaced; [split; [destruct b; assumption|left; destruct b; left; reflexivity]|constructor|]. apply means_switch. destruct b; reflexivity.
Qed.
Lemma assigned_flags bs : assigned (map (fun b => (pbc_option b, VBool b)) bs) "pbc" = match bs with [] => None | _ => Some (VBool (last bs false)) end.
Proof.
  induction bs as [|b bs IH]; [reflexivity|]. cbn [map assigned]. rewrite IH. destruct bs as [|c bs]; [destruct b; reflexivity|]. reflexivity.
Qed.
Lemma assigned_app l l' d : assigned (l ++ l') d = either (assigned l' d) (assigned l d).
Proof.
  induction l as [|[o v] l IH]; [cbn; destruct (assigned l' d); reflexivity|]. cbn [app assigned]. rewrite IH. destruct (assigned l' d); reflexivity.
Qed.

(** The last of the switches --use_pbc and --no_pbc before the command wins; without them the boundary is open. *)
Theorem C80_boundary : forall (rf : string -> option R) (bs : list bool) path s g, plain path -> plain s -> rf s = Some g ->
  (exists ns, heisenberg_args rf (map pbc_flag bs ++ ["train"; "--output_path"; path]) = Done ns /\ getattr ns "pbc" = Some (VBool (last bs false))) /\
  (exists ns, heisenberg_args rf (map pbc_flag bs ++ ["eval"; "--weights_path"; path]) = Done ns /\ getattr ns "pbc" = Some (VBool (last bs false))) /\
  (exists ns, ising_args rf (map pbc_flag bs ++ ["--gamma"; s; "train"; "--output_path"; path]) = Done ns /\ getattr ns "pbc" = Some (VBool (last bs false))) /\
  (exists ns, ising_args rf (map pbc_flag bs ++ ["--gamma"; s; "eval"; "--weights_path"; path]) = Done ns /\ getattr ns "pbc" = Some (VBool (last bs false))).
Proof.
  intros rf bs path s g PP PS G.
  pose (gm := valued "gamma" "gamma" One KFloat VNone true).
  assert (DP : forall os d f, In (valued f d One KStr VNone true) os -> Forall2 (denotes rf os) [Spaced ("--" ++ f)%string [path]] [(valued f d One KStr VNone true, VStr path)]).
  { intros os d f I. constructor; [|constructor]. apply denotes_spaced; [split; [exact I|left; left; reflexivity]|plains|]. eapply means_one; [reflexivity|discriminate|constructor|exact Logic.I]. }
  assert (DG : Forall2 (denotes rf (options ising_parser)) (map (fun b => Spaced (pbc_flag b) []) bs ++ [Spaced "--gamma" [s]]) (map (fun b => (pbc_option b, VBool b)) bs ++ [(gm, VFloat g)])).
  { apply Forall2_app; [apply flags_denote; cbn; tauto|]. constructor; [|constructor]. apply denotes_spaced; [names_exact|plains|]. eapply means_one; [reflexivity|discriminate|constructor; exact G|exact Logic.I]. }
  assert (CG : complete ising_parser (map (fun b => (pbc_option b, VBool b)) bs ++ [(gm, VFloat g)])).
  { intros o I R. rewrite map_app. apply in_or_app. right. cbn in I. destruct I as [<-|[<-|[<-|[<-|[]]]]]; try discriminate R. left. reflexivity. }
  assert (DH : Forall2 (denotes rf (options heisenberg_parser)) (map (fun b => Spaced (pbc_flag b) []) bs) (map (fun b => (pbc_option b, VBool b)) bs)) by (apply flags_denote; cbn; tauto).
  assert (CH : complete heisenberg_parser (map (fun b => (pbc_option b, VBool b)) bs)) by (intros o I R; cbn in I; destruct I as [<-|[<-|[<-|[]]]]; discriminate R).
  pose (it := training_parser "train" 10 (2 ^ 12) [100; 100; 50]%Z [2 ^ 7; 2 ^ 10; 2 ^ 13]%Z [12; 12]%Z [0.001; 0.001; 0.001]%R).
  pose (ht := training_parser "train" 20 (2 ^ 11) [80; 370]%Z [2 ^ 10; 2 ^ 11]%Z [10; 10]%Z [0.001; 0.001]%R).
  pose (ie := evaluation_parser "run" 10 (2 ^ 8) [12; 12]%Z). pose (he := evaluation_parser "run" 20 (2 ^ 7) [10; 10]%Z).
  split; [|split; [|split]].
  - destruct (C80_scripts rf heisenberg_parser heisenberg_commands "train" ht _ _ _ _ (or_intror (conj eq_refl eq_refl)) eq_refl DH (DP (options ht) "output_path" "output_path" ltac:(cbn; tauto))) as [H _].
    destruct (H CH) as [ns [E X]]; [intros o I R; cbn in I; repeat (destruct I as [<-|I]; [try discriminate R; left; reflexivity|]); destruct I|].
    exists ns. rewrite flat_text in E. split; [exact E|]. rewrite X. unfold expected. rewrite assigned_flags. destruct bs; reflexivity.
  - destruct (C80_scripts rf heisenberg_parser heisenberg_commands "eval" he _ _ _ _ (or_intror (conj eq_refl eq_refl)) eq_refl DH (DP (options he) "weights_path" "weights_path" ltac:(cbn; tauto))) as [H _].
    destruct (H CH) as [ns [E X]]; [intros o I R; cbn in I; repeat (destruct I as [<-|I]; [try discriminate R; left; reflexivity|]); destruct I|].
    exists ns. rewrite flat_text in E. split; [exact E|]. rewrite X. unfold expected. rewrite assigned_flags. destruct bs; reflexivity.
  - destruct (C80_scripts rf ising_parser ising_commands "train" it _ _ _ _ (or_introl (conj eq_refl eq_refl)) eq_refl DG (DP (options it) "output_path" "output_path" ltac:(cbn; tauto))) as [H _].
    destruct (H CG) as [ns [E X]]; [intros o I R; cbn in I; repeat (destruct I as [<-|I]; [try discriminate R; left; reflexivity|]); destruct I|].
    exists ns. rewrite flat_map_app, flat_text, <- app_assoc in E. split; [exact E|]. rewrite X. unfold expected. rewrite assigned_app, assigned_flags. destruct bs; reflexivity.
  - destruct (C80_scripts rf ising_parser ising_commands "eval" ie _ _ _ _ (or_introl (conj eq_refl eq_refl)) eq_refl DG (DP (options ie) "weights_path" "weights_path" ltac:(cbn; tauto))) as [H _].
    destruct (H CG) as [ns [E X]]; [intros o I R; cbn in I; repeat (destruct I as [<-|I]; [try discriminate R; left; reflexivity|]); destruct I|].
    exists ns. rewrite flat_map_app, flat_text, <- app_assoc in E. split; [exact E|]. rewrite X. unfold expected. rewrite assigned_app, assigned_flags. destruct bs; reflexivity.
Qed.
Print Assumptions C80_boundary.
Example C80_boundary_ex : plain "weights/x.h5" /\ plain "2.5" /\ rf_ex "2.5" = Some 2.5%R /\ last [true; false; true] false = true.
Proof. repeat split; apply plain_ex; reflexivity. Qed.

(** examples/ising.py and examples/benchmark.py: the value of every attribute that the command line does not mention, and the switches, after any other options. *)
Definition example_defaults : list (string * value) :=
  [("gamma", VNone); ("depth", VInt 20); ("width", VInt 32); ("learning_rate", VFloat 0.001); ("no_weights_normalization", VBool false); ("run_index", VInt 1)].
Definition benchmark_defaults : list (string * value) :=
  [("learning_rate", VFloat 0.0001); ("input_size", VInt 20); ("batch_size", VInt 1000); ("kernel_size", VInt 4); ("depth", VInt 2); ("width", VInt 4);
   ("pyket_num_of_chains", VInt 20); ("num_of_iterations", VInt 20); ("use_cholesky", VBool false); ("use_iterative", VBool false); ("pyket_on_cpu", VBool false);
   ("use_stochastic_reconfiguration", VBool false); ("fast_jacobian", VBool false); ("no_pfor", VBool false)].
Definition benchmark_switches : list (string * string) :=
  [("-use_cholesky", "use_cholesky"); ("-use_iterative", "use_iterative"); ("-pyket_on_cpu", "pyket_on_cpu"); ("-cpu", "pyket_on_cpu");
   ("-use_stochastic_reconfiguration", "use_stochastic_reconfiguration"); ("-sr", "use_stochastic_reconfiguration"); ("-fast_jacobian", "fast_jacobian"); ("-no_pfor", "no_pfor")].

Theorem C80_defaults : forall (rf : string -> option R) ss l,
  (Forall2 (denotes rf (options example_parser)) ss l ->
     (exists ns, example_args rf (flat_map text ss) = Done ns /\ forall d v, In (d, v) example_defaults -> assigned l d = None -> getattr ns d = Some v) /\
     (exists ns, example_args rf (flat_map text ss ++ ["--no_weights_normalization"]) = Done ns /\ getattr ns "no_weights_normalization" = Some (VBool true))) /\
  (Forall2 (denotes rf (options benchmark_parser)) ss l -> forall framework, In framework ["flowket"; "netket"] ->
     (exists ns, benchmark_args rf (framework :: flat_map text ss) = Done ns /\ forall d v, In (d, v) benchmark_defaults -> assigned l d = None -> getattr ns d = Some v) /\
     (forall f d, In (f, d) benchmark_switches -> exists ns, benchmark_args rf (framework :: flat_map text ss ++ [f]) = Done ns /\ getattr ns d = Some (VBool true))).
Proof.
  intros rf ss l. split.
  - intros F. assert (P : forall ss l, Forall2 (denotes rf (options example_parser)) ss l -> exists ns, example_args rf (flat_map text ss) = Done ns /\ forall d, getattr ns d = expected example_parser l d).
    { clear. intros ss l F. destruct (C80_options rf example_parser ss l) as [H _]; [apply flags_okb_ok; vm_compute; reflexivity|exact F|].
      apply H. intros o I R. cbn in I. repeat (destruct I as [<-|I]; [discriminate R|]). destruct I. }
    split.
    + destruct (P ss l F) as [ns [E G]]. exists ns. split; [exact E|]. intros d v I N. rewrite G. unfold expected. rewrite N.
      cbn [example_defaults In] in I. repeat (destruct I as [I|I]; [injection I as <- <-; reflexivity|]). destruct I.
    + destruct (P (ss ++ [Spaced "--no_weights_normalization" []]) (l ++ [(switch "no_weights_normalization" "no_weights_normalization" true false, VBool true)])) as [ns [E G]].
      * apply Forall2_app; [exact F|]. constructor; [|constructor]. apply denotes_spaced; [names_exact|constructor|]. apply means_switch. reflexivity.
      * exists ns. rewrite flat_map_app in E. split; [exact E|]. rewrite G. unfold expected. rewrite assigned_app. reflexivity.
  - intros F framework W. split.
    + destruct (C80_benchmark rf framework ss l W F) as [ns [E G]]. exists ns. split; [exact E|]. intros d v I N. rewrite G. unfold expected. rewrite N.
      cbn [benchmark_defaults In] in I. repeat (destruct I as [I|I]; [injection I as <- <-; reflexivity|]). destruct I.
    + intros f d I.
      assert (X : exists names, In f names /\ In (benchmark_switch names d) (options benchmark_parser)).
      { cbn [benchmark_switches In] in I. repeat (destruct I as [I|I]; [injection I as <- <-|]); [..|destruct I];
          [exists ["-use_cholesky"]|exists ["-use_iterative"]|exists ["-pyket_on_cpu"; "-cpu"]|exists ["-pyket_on_cpu"; "-cpu"]
          |exists ["-use_stochastic_reconfiguration"; "-sr"]|exists ["-use_stochastic_reconfiguration"; "-sr"]|exists ["-fast_jacobian"]|exists ["-no_pfor"]]; cbn; tauto. }
      assert (D : String.eqb "framework" d = false) by (cbn [benchmark_switches In] in I; repeat (destruct I as [I|I]; [injection I as <- <-; reflexivity|]); destruct I).
      destruct X as (names & If & Io).
      destruct (C80_benchmark rf framework (ss ++ [Spaced f []]) (l ++ [(benchmark_switch names d, VBool true)]) W) as [ns [E G]].
      * apply Forall2_app; [exact F|]. constructor; [|constructor]. apply denotes_spaced; [split; [exact Io|left; exact If]|constructor|]. apply means_switch. reflexivity.
      * exists ns. rewrite flat_map_app in E. split; [exact E|]. rewrite G, D. unfold expected. rewrite assigned_app. cbn [assigned dest benchmark_switch]. now rewrite String.eqb_refl.
Qed.
Print Assumptions C80_defaults.
Example C80_defaults_ex : exists ns, example_args rf_ex ["--depth"; "10"; "--no_weights_normalization"] = Done ns /\ getattr ns "depth" = Some (VInt 10) /\
  getattr ns "width" = Some (VInt 32) /\ getattr ns "no_weights_normalization" = Some (VBool true).
Proof. eexists. repeat split; reflexivity. Qed.

(** The switches of the commands train and eval: again the last one wins; the weights are normalized and horovod is off without them. *)
Definition weights_flag (b : bool) : string := if b then "--use_weights_normalization" else "--no_weights_normalization".
Definition horovod_flag (b : bool) : string := if b then "--use_horovod" else "--disable_horovod".
Definition weights_option (b : bool) : opt := if b then switch "use_weights_normalization" "weights_normalization" true true else switch "no_weights_normalization" "weights_normalization" false true.
Definition horovod_option (b : bool) : opt := if b then switch "use_horovod" "use_horovod" true false else switch "disable_horovod" "use_horovod" false false.

Lemma texts_of (fl : bool -> string) bs : flat_map text (map (fun b => Spaced (fl b) []) bs) = map fl bs.
Proof. induction bs as [|b bs IH]; [reflexivity|]. cbn [map flat_map text app]. now rewrite IH. Qed.
Lemma switches_denote rf os (fl : bool -> string) (op : bool -> opt) bs : (forall b, In (op b) os /\ In (fl b) (flags (op b)) /\ act (op b) = StoreConst b) ->
  Forall2 (denotes rf os) (map (fun b => Spaced (fl b) []) bs) (map (fun b => (op b, VBool b)) bs).
Proof.
  intros H. induction bs as [|b bs IH]; [constructor|]. cbn [map]. destruct (H b) as (A & B & D). constructor; [|exact IH].
  apply denotes_spaced; [split; [exact A|left; exact B]|constructor|]. now apply means_switch.
Qed.
Lemma assigned_switches (op : bool -> opt) d bs : (forall b, dest (op b) = d) ->
  assigned (map (fun b => (op b, VBool b)) bs) d = match bs with [] => None | _ => Some (VBool (last bs false)) end.
Proof.
  intros H. induction bs as [|b bs IH]; [reflexivity|]. cbn [map assigned]. rewrite IH. destruct bs as [|c bs]; [rewrite H, String.eqb_refl; reflexivity|]. reflexivity.
Qed.
Lemma assigned_others (op : bool -> opt) d bs : (forall b, String.eqb (dest (op b)) d = false) -> assigned (map (fun b => (op b, VBool b)) bs) d = None.
Proof. intros H. induction bs as [|b bs IH]; [reflexivity|]. cbn [map assigned]. now rewrite IH, H. Qed.

Theorem C80_switches : forall (rf : string -> option R) (ws hs : list bool) path s g, plain path -> plain s -> rf s = Some g ->
  (exists ns, heisenberg_args rf (["train"; "--output_path"; path] ++ map weights_flag ws ++ map horovod_flag hs) = Done ns /\
     getattr ns "weights_normalization" = Some (VBool (last ws true)) /\ getattr ns "use_horovod" = Some (VBool (last hs false))) /\
  (exists ns, ising_args rf (["--gamma"; s; "train"; "--output_path"; path] ++ map weights_flag ws ++ map horovod_flag hs) = Done ns /\
     getattr ns "weights_normalization" = Some (VBool (last ws true)) /\ getattr ns "use_horovod" = Some (VBool (last hs false))) /\
  (exists ns, heisenberg_args rf (["eval"; "--weights_path"; path] ++ map weights_flag ws) = Done ns /\ getattr ns "weights_normalization" = Some (VBool (last ws true))) /\
  (exists ns, ising_args rf (["--gamma"; s; "eval"; "--weights_path"; path] ++ map weights_flag ws) = Done ns /\ getattr ns "weights_normalization" = Some (VBool (last ws true))).
Proof.
  intros rf ws hs path s g PP PS G.
  assert (LT : forall (l : list bool) a b, l <> [] -> last l a = last l b).
  { induction l as [|x l IH]; intros a b N; [congruence|]. destruct l; [reflexivity|]. apply (IH a b). discriminate. }
  pose (gm := valued "gamma" "gamma" One KFloat VNone true).
  assert (DG : Forall2 (denotes rf (options ising_parser)) [Spaced "--gamma" [s]] [(gm, VFloat g)]).
  { constructor; [|constructor]. apply denotes_spaced; [names_exact|plains|]. eapply means_one; [reflexivity|discriminate|constructor; exact G|exact Logic.I]. }
  assert (CG : complete ising_parser [(gm, VFloat g)]).
  { intros o I R. cbn in I. destruct I as [<-|[<-|[<-|[<-|[]]]]]; try discriminate R. left. reflexivity. }
  assert (CH : complete heisenberg_parser []) by (intros o I R; cbn in I; destruct I as [<-|[<-|[<-|[]]]]; discriminate R).
  pose (out := valued "output_path" "output_path" One KStr VNone true). pose (wp := valued "weights_path" "weights_path" One KStr VNone true).
  assert (DT : forall q, In out (options q) -> (forall b, In (weights_option b) (options q)) -> (forall b, In (horovod_option b) (options q)) ->
    Forall2 (denotes rf (options q)) (Spaced "--output_path" [path] :: map (fun b => Spaced (weights_flag b) []) ws ++ map (fun b => Spaced (horovod_flag b) []) hs)
      ((out, VStr path) :: map (fun b => (weights_option b, VBool b)) ws ++ map (fun b => (horovod_option b, VBool b)) hs)).
  { intros q A B D. constructor.
    - apply denotes_spaced; [split; [exact A|left; left; reflexivity]|plains|]. eapply means_one; [reflexivity|discriminate|constructor|exact Logic.I].
    - apply Forall2_app; apply switches_denote; intros b; (split; [auto|]); destruct b; (split; [left; reflexivity|reflexivity]). }
  assert (DE : forall q, In wp (options q) -> (forall b, In (weights_option b) (options q)) ->
    Forall2 (denotes rf (options q)) (Spaced "--weights_path" [path] :: map (fun b => Spaced (weights_flag b) []) ws) ((wp, VStr path) :: map (fun b => (weights_option b, VBool b)) ws)).
  { intros q A B. constructor.
    - apply denotes_spaced; [split; [exact A|left; left; reflexivity]|plains|]. eapply means_one; [reflexivity|discriminate|constructor|exact Logic.I].
    - apply switches_denote; intros b; (split; [auto|]); destruct b; (split; [left; reflexivity|reflexivity]). }
  assert (TT : flat_map text (Spaced "--output_path" [path] :: map (fun b => Spaced (weights_flag b) []) ws ++ map (fun b => Spaced (horovod_flag b) []) hs) =
    ["--output_path"; path] ++ map weights_flag ws ++ map horovod_flag hs) by (cbn [flat_map text]; now rewrite flat_map_app, !texts_of).
  assert (TE : flat_map text (Spaced "--weights_path" [path] :: map (fun b => Spaced (weights_flag b) []) ws) = ["--weights_path"; path] ++ map weights_flag ws) by (cbn [flat_map text]; now rewrite texts_of).
  assert (AW : assigned ((out, VStr path) :: map (fun b => (weights_option b, VBool b)) ws ++ map (fun b => (horovod_option b, VBool b)) hs) "weights_normalization" =
    match ws with [] => None | _ => Some (VBool (last ws false)) end).
  { cbn [assigned]. rewrite assigned_app, (assigned_others horovod_option) by (intros []; reflexivity). cbn [either].
    rewrite assigned_switches by (intros []; reflexivity). destruct ws; reflexivity. }
  assert (AH : assigned ((out, VStr path) :: map (fun b => (weights_option b, VBool b)) ws ++ map (fun b => (horovod_option b, VBool b)) hs) "use_horovod" =
    match hs with [] => None | _ => Some (VBool (last hs false)) end).
  { cbn [assigned]. rewrite assigned_app, (assigned_others weights_option) by (intros []; reflexivity).
    rewrite assigned_switches by (intros []; reflexivity). destruct hs; reflexivity. }
  assert (AE : assigned ((wp, VStr path) :: map (fun b => (weights_option b, VBool b)) ws) "weights_normalization" = match ws with [] => None | _ => Some (VBool (last ws false)) end).
  { cbn [assigned]. rewrite assigned_switches by (intros []; reflexivity). destruct ws; reflexivity. }
  pose (it := training_parser "train" 10 (2 ^ 12) [100; 100; 50]%Z [2 ^ 7; 2 ^ 10; 2 ^ 13]%Z [12; 12]%Z [0.001; 0.001; 0.001]%R).
  pose (ht := training_parser "train" 20 (2 ^ 11) [80; 370]%Z [2 ^ 10; 2 ^ 11]%Z [10; 10]%Z [0.001; 0.001]%R).
  pose (ie := evaluation_parser "run" 10 (2 ^ 8) [12; 12]%Z). pose (he := evaluation_parser "run" 20 (2 ^ 7) [10; 10]%Z).
  split; [|split; [|split]].
  - destruct (C80_scripts rf heisenberg_parser heisenberg_commands "train" ht [] [] _ _ (or_intror (conj eq_refl eq_refl)) eq_refl (Forall2_nil _)
      (DT ht ltac:(cbn; tauto) ltac:(intros []; cbn; tauto) ltac:(intros []; cbn; tauto))) as [H _].
    destruct (H CH) as [ns [E X]]; [intros o I R; cbn in I; repeat (destruct I as [<-|I]; [try discriminate R; left; reflexivity|]); destruct I|].
    exists ns. rewrite TT in E. split; [exact E|]. rewrite !X. unfold expected. rewrite AW, AH.
    split; [destruct ws; [reflexivity|]; rewrite (LT _ true false) by discriminate; reflexivity|destruct hs; reflexivity].
  - destruct (C80_scripts rf ising_parser ising_commands "train" it _ _ _ _ (or_introl (conj eq_refl eq_refl)) eq_refl DG
      (DT it ltac:(cbn; tauto) ltac:(intros []; cbn; tauto) ltac:(intros []; cbn; tauto))) as [H _].
    destruct (H CG) as [ns [E X]]; [intros o I R; cbn in I; repeat (destruct I as [<-|I]; [try discriminate R; left; reflexivity|]); destruct I|].
    exists ns. rewrite TT in E. split; [exact E|]. rewrite !X. unfold expected. rewrite AW, AH.
    split; [destruct ws; [reflexivity|]; rewrite (LT _ true false) by discriminate; reflexivity|destruct hs; reflexivity].
  - destruct (C80_scripts rf heisenberg_parser heisenberg_commands "eval" he [] [] _ _ (or_intror (conj eq_refl eq_refl)) eq_refl (Forall2_nil _)
      (DE he ltac:(cbn; tauto) ltac:(intros []; cbn; tauto))) as [H _].
    destruct (H CH) as [ns [E X]]; [intros o I R; cbn in I; repeat (destruct I as [<-|I]; [try discriminate R; left; reflexivity|]); destruct I|].
    exists ns. rewrite TE in E. split; [exact E|]. rewrite !X. unfold expected. rewrite AE.
    destruct ws; [reflexivity|]; rewrite (LT _ true false) by discriminate; reflexivity.
  - destruct (C80_scripts rf ising_parser ising_commands "eval" ie _ _ _ _ (or_introl (conj eq_refl eq_refl)) eq_refl DG
      (DE ie ltac:(cbn; tauto) ltac:(intros []; cbn; tauto))) as [H _].
    destruct (H CG) as [ns [E X]]; [intros o I R; cbn in I; repeat (destruct I as [<-|I]; [try discriminate R; left; reflexivity|]); destruct I|].
    exists ns. rewrite TE in E. split; [exact E|]. rewrite !X. unfold expected. rewrite AE.
    destruct ws; [reflexivity|]; rewrite (LT _ true false) by discriminate; reflexivity.
Qed.
Print Assumptions C80_switches.
Example C80_switches_ex : plain "weights/x.h5" /\ plain "2.5" /\ rf_ex "2.5" = Some 2.5%R /\ last [true; false] true = false /\ last [false; true] false = true.
Proof. repeat split; apply plain_ex; reflexivity. Qed.
