(** Lemmas for CommandLineProps.v. *)
From Coq Require Import String Ascii List ZArith Reals Bool Arith Lia.
From Verif Require Import Base CommandLineModel RunnerModel CommandLineSpec.
Import ListNotations.
Local Open Scope list_scope.
Local Open Scope nat_scope.

(** ** Strings *)
Lemma first_is_dash s : first_is dash s = true <-> exists t, s = String "-" t.
Proof.
  destruct s as [|c t]; cbn; [split; [discriminate|intros [t H]; discriminate]|]. unfold dash. destruct (Ascii.eqb_spec c "-"%char) as [->|N].
  - split; [exists t; reflexivity|reflexivity].
  - split; [discriminate|intros [t' H]; congruence].
Qed.
Lemma prefix_app w f : String.prefix w f = true <-> exists rest, f = (w ++ rest)%string.
Proof.
  revert f. induction w as [|c w IH]; intro f.
  - split; [exists f; reflexivity|destruct f; reflexivity].
  - destruct f as [|d f]; [split; [discriminate|intros [r H]; discriminate]|].
    change (String.prefix (String c w) (String d f)) with (if ascii_dec c d then String.prefix w f else false). cbn [append]. destruct (ascii_dec c d) as [->|N].
    + rewrite IH. split; intros [r H]; exists r; [rewrite H; reflexivity|injection H as ->; reflexivity].
    + split; [discriminate|intros [r H]; injection H; intros; congruence].
Qed.
Lemma split_eq_none s : ~ In "="%char (chars s) -> split_eq s = None.
Proof.
  unfold chars. induction s as [|c t IH]; cbn; [reflexivity|]. intro H. destruct (Ascii.eqb_spec c "="%char) as [->|N]; [tauto|].
  rewrite IH by tauto. reflexivity.
Qed.
Lemma split_eq_app w a : ~ In "="%char (chars w) -> split_eq (w ++ "=" ++ a) = Some (w, a).
Proof.
  unfold chars. induction w as [|c t IH]; cbn; [reflexivity|]. intro H. destruct (Ascii.eqb_spec c "="%char) as [->|N]; [tauto|].
  cbn in IH. rewrite IH by tauto. reflexivity.
Qed.
Lemma chars_app a b : chars (a ++ b)%string = chars a ++ chars b.
Proof. unfold chars. induction a; cbn; [reflexivity|]. f_equal. exact IHa. Qed.
Lemma eqb_refl_string s : String.eqb s s = true.
Proof. apply String.eqb_refl. Qed.

Lemma is_digit_ok c : is_digit c = true <-> digit c.
Proof.
  unfold is_digit, digit. split.
  - intro H. apply andb_true_iff in H. destruct H as [H1 H2]. apply Nat.leb_le in H1. apply Nat.leb_le in H2.
    exists (nat_of_ascii c - 48). split; [lia|]. replace (48 + (nat_of_ascii c - 48)) with (nat_of_ascii c) by lia. symmetry. apply ascii_nat_embedding.
  - intros [n [L ->]]. rewrite nat_ascii_embedding by lia. apply andb_true_iff. split; apply Nat.leb_le; lia.
Qed.
Lemma all_digits_ok s : all_digits s = true <-> Forall digit (chars s).
Proof.
  unfold chars. induction s as [|c t IH]; cbn; [split; auto|]. rewrite andb_true_iff, is_digit_ok, IH. split; [intros []; auto|intro H; inversion H; auto].
Qed.
Lemma digit_dot : ~ digit "."%char. Proof. intro H. apply is_digit_ok in H. discriminate. Qed.
Lemma digit_dash : ~ digit "-"%char. Proof. intro H. apply is_digit_ok in H. discriminate. Qed.
Lemma digit_eq : ~ digit "="%char. Proof. intro H. apply is_digit_ok in H. discriminate. Qed.
Lemma digits_dot a b : Forall digit (chars a) -> Forall digit (chars b) -> b <> EmptyString -> digits_dot_digits (a ++ "." ++ b) = true.
Proof.
  intros HA HB N. induction a as [|c t IH]; cbn.
  - apply andb_true_iff. split; [destruct b; [congruence|reflexivity]|apply all_digits_ok, HB].
  - unfold chars in HA. cbn in HA. inversion HA as [|? ? D T]; subst. destruct (Ascii.eqb_spec c "."%char) as [->|_]; [destruct (digit_dot D)|].
    apply is_digit_ok in D. rewrite D. cbn. apply IH, T.
Qed.
(** A negative number: its second character, and that argparse sees one. *)
Lemma negative_decimal_shape s : negative_decimal s ->
  negative_number s = true /\ ~ In "="%char (chars s) /\ exists c t, s = String "-" (String c t) /\ (digit c \/ c = "."%char).
Proof.
  intros [a [b [HA [HB [N H]]]]].
  assert (NE : forall l, Forall digit l -> ~ In "="%char l) by (intros l F I; rewrite Forall_forall in F; destruct (digit_eq (F _ I))).
  destruct H as [-> | ->].
  - destruct b as [|c t]; [congruence|]. split; [|split].
    + cbn. unfold dash. cbn. apply all_digits_ok in HB. cbn in HB. rewrite HB. reflexivity.
    + change (chars ("-" ++ String c t)) with ("-"%char :: chars (String c t)). intros [E|I]; [discriminate|destruct (NE _ HB I)].
    + exists c, t. split; [reflexivity|]. left. inversion HB; auto.
  - split; [|split].
    + cbn. pose proof (digits_dot a b HA HB N) as D. cbn in D. rewrite D. rewrite orb_true_r. reflexivity.
    + change (chars ("-" ++ a ++ "." ++ b)) with ("-"%char :: chars (a ++ "." ++ b)). intros [E|I]; [discriminate|].
      rewrite !chars_app in I. apply in_app_or in I. destruct I as [I|I]; [destruct (NE _ HA I)|]. cbn in I. destruct I as [E|I]; [discriminate|destruct (NE _ HB I)].
    + destruct a as [|c t]; [exists "."%char, b; split; [reflexivity|right; reflexivity]|].
      exists c, (t ++ "." ++ b)%string. split; [reflexivity|]. left. inversion HA; auto.
Qed.
Lemma plain_not_separator s : plain s -> s <> "--"%string.
Proof.
  intros [H|H] ->; [apply (H "-"%string); reflexivity|]. apply negative_decimal_shape in H. destruct H as [H _]. discriminate.
Qed.

(** ** Options *)
Section Options.
  Context (os : list opt) (OK : flags_ok os).
  Let ND := proj1 OK. Let FO := proj1 (proj2 OK).
  Lemma flag_of o f : In o os -> In f (flags o) -> In f (flat_map flags os).
  Proof. intros. apply in_flat_map. eauto. Qed.
  Lemma nodup_flat o o' f (l : list opt) : NoDup (flat_map flags l) -> In o l -> In o' l -> In f (flags o) -> In f (flags o') -> o = o'.
  Proof.
    induction l as [|x t IH]; cbn; [tauto|]. intros N [->|I] [->|I'] F F'; [reflexivity| | |].
    - exfalso. clear IH. induction (flags o) as [|y u IHu]; [destruct F|]. cbn in N. inversion N as [|? ? NI NN]; subst.
      destruct F as [->|F]; [apply NI, in_or_app; right; apply in_flat_map; eauto|auto].
    - exfalso. clear IH. induction (flags o') as [|y u IHu]; [destruct F'|]. cbn in N. inversion N as [|? ? NI NN]; subst.
      destruct F' as [->|F']; [apply NI, in_or_app; right; apply in_flat_map; eauto|auto].
    - apply IH; auto. clear IH. induction (flags x) as [|y u IHu]; [exact N|]. cbn in N. inversion N; auto.
  Qed.
  Lemma find_flag_some w o : In o os -> In w (flags o) -> find_flag os w = Some o.
  Proof.
    intros I F. unfold find_flag. destruct (find _ os) as [o'|] eqn:E.
    - apply find_some in E. destruct E as [I' E]. apply existsb_exists in E. destruct E as [f [F' E]]. apply String.eqb_eq in E. subst f.
      f_equal. exact (nodup_flat o' o w os ND I' I F' F).
    - exfalso. apply find_none with (x := o) in E; [|exact I]. assert (T : existsb (String.eqb w) (flags o) = true) by (apply existsb_exists; exists w; split; [exact F|apply eqb_refl_string]).
      congruence.
  Qed.
  Lemma find_flag_none w : ~ In w (flat_map flags os) -> find_flag os w = None.
  Proof.
    intro N. unfold find_flag. destruct (find _ os) as [o|] eqn:E; [|reflexivity]. exfalso. apply find_some in E. destruct E as [I E].
    apply existsb_exists in E. destruct E as [f [F E]]. apply String.eqb_eq in E. subst f. apply N. eapply flag_of; eauto.
  Qed.
  Lemma flag_good f : In f (flat_map flags os) -> flag_ok f.
  Proof. rewrite Forall_forall in FO. apply FO. Qed.

  (** Plain arguments are classified as such. *)
  Lemma parse_plain s : plain s -> parse_optional os s = Done Arg.
  Proof.
    intros [H|H]; unfold parse_optional.
    - destruct (first_is dash s) eqn:E; [|reflexivity]. apply first_is_dash in E. destruct E as [t E]. destruct (H t E).
    - apply negative_decimal_shape in H. destruct H as [NN [NE [c [t [-> HC]]]]].
      assert (NOT : forall f, In f (flat_map flags os) -> forall u, f <> String "-" (String c u)).
      { intros f I u E. apply flag_good in I. destruct I as [_ [d [v [E' [D1 [D2 _]]]]]]. rewrite E in E'. injection E' as -> _. tauto. }
      change (first_is dash (String "-" (String c t))) with true. cbn [negb].
      rewrite find_flag_none by (intro I; apply (NOT _ I t); reflexivity).
      change (String.length (String "-" (String c t)) =? 1) with false. cbn [orb]. rewrite (split_eq_none _ NE).
      replace (option_tuples os (String "-" (String c t))) with (@nil (opt * string * option string)); [rewrite NN; reflexivity|].
      symmetry. unfold option_tuples. rewrite (split_eq_none _ NE).
      assert (first_is dash (String c t) = false) as ->.
      { cbn. unfold dash. destruct (Ascii.eqb_spec c "-"%char) as [->|]; [|reflexivity]. destruct HC as [D|D]; [destruct (digit_dash D)|discriminate]. }
      assert (G : forall l, incl l os -> flat_map (fun o => flat_map (fun f =>
          if String.eqb f (substring 0 2 (String "-" (String c t))) then [(o, f, Some (substring 2 (String.length (String "-" (String c t)) - 2) (String "-" (String c t))))]
          else if String.prefix (String "-" (String c t)) f then [(o, f, @None string)] else []) (flags o)) l = []).
      { induction l as [|o l IH]; intro I; [reflexivity|]. cbn [flat_map]. rewrite IH by (intros x X; apply I; right; exact X). rewrite app_nil_r.
        assert (G2 : forall fs, incl fs (flags o) -> flat_map (fun f =>
          if String.eqb f (substring 0 2 (String "-" (String c t))) then [(o, f, Some (substring 2 (String.length (String "-" (String c t)) - 2) (String "-" (String c t))))]
          else if String.prefix (String "-" (String c t)) f then [(o, f, @None string)] else []) fs = []).
        { induction fs as [|f fs IHf]; intro J; [reflexivity|]. cbn [flat_map]. rewrite IHf by (intros x X; apply J; right; exact X). rewrite app_nil_r.
          assert (IF : In f (flat_map flags os)) by (apply in_flat_map; exists o; split; [apply I; left; reflexivity|apply J; left; reflexivity]).
          destruct (String.eqb_spec f (substring 0 2 (String "-" (String c t)))) as [E|_].
          { exfalso. apply (NOT f IF EmptyString). rewrite E. cbn. destruct t; reflexivity. }
          destruct (String.prefix (String "-" (String c t)) f) eqn:P; [|reflexivity]. exfalso. apply prefix_app in P. destruct P as [r P]. exact (NOT f IF _ P). }
        apply G2. intros x X; exact X. }
      apply G. intros x X; exact X.
  Qed.

  (** The option strings that a word with two dashes starts. *)
  Lemma option_tuples_long w e s f o c t : w = String "-" (String "-" (String c t)) ->
    split_eq s = match e with Some a => Some (w, a) | None => None end -> (e = None -> s = w) -> (exists u, s = (w ++ u)%string) ->
    In o os -> In f (flags o) -> (exists rest, f = (w ++ rest)%string) ->
    (forall g, In g (flat_map flags os) -> (exists rest, g = (w ++ rest)%string) -> g = f) ->
    option_tuples os s = [(o, f, e)].
  Proof.
    intros W S0 S1 [u S2] I F [r E] U. unfold option_tuples.
    assert (match s with EmptyString => false | String _ t0 => first_is dash t0 end = true) as -> by (rewrite S2, W; reflexivity).
    assert (match split_eq s with Some (a, b) => (a, Some b) | None => (s, None) end = (w, e)) as ->.
    { rewrite S0. destruct e; [reflexivity|]. rewrite S1; reflexivity. }
    assert (G : forall l, NoDup (flat_map flags l) -> incl l os ->
      flat_map (fun o => flat_map (fun f => if String.prefix w f then [(o, f, e)] else []) (flags o)) l = if in_dec string_dec f (flat_map flags l) then [(o, f, e)] else []).
    { induction l as [|x l IH]; intros NDl J; [reflexivity|]. cbn [flat_map]. 
      assert (NDx : NoDup (flags x) /\ NoDup (flat_map flags l) /\ (forall y, In y (flags x) -> ~ In y (flat_map flags l))).
      { cbn [flat_map] in NDl. clear - NDl. induction (flags x) as [|y ys IHy]; [repeat split; auto; constructor|]. cbn in NDl. inversion NDl as [|? ? A B]; subst.
        destruct (IHy B) as [P [Q R]]. split; [constructor; [intro; apply A, in_or_app; left; auto|auto]|]. split; [exact Q|].
        intros z [->|Z]; [intro; apply A, in_or_app; right; auto|auto]. }
      destruct NDx as [N1 [N2 N3]]. rewrite IH by (auto; intros z Z; apply J; right; exact Z).
      assert (G2 : forall fs, NoDup fs -> incl fs (flags x) -> flat_map (fun f => if String.prefix w f then [(x, f, e)] else []) fs = if in_dec string_dec f fs then [(o, f, e)] else []).
      { induction fs as [|g fs IHf]; intros NF K; [reflexivity|]. apply NoDup_cons_iff in NF. destruct NF as [NI NF']. cbn [flat_map]. rewrite IHf by (auto; intros z Z; apply K; right; exact Z).
        assert (IG : In g (flags x)) by (apply K; left; reflexivity).
        assert (IX : In x os) by (apply J; left; reflexivity).
        destruct (String.prefix w g) eqn:P.
        - apply prefix_app in P. pose proof (U g (flag_of x g IX IG) P) as GF. subst g.
          assert (x = o) as -> by exact (nodup_flat x o f os ND IX I IG F).
          destruct (in_dec string_dec f fs) as [X|_]; [tauto|]. destruct (in_dec string_dec f (f :: fs)) as [_|X]; [reflexivity|destruct X; left; reflexivity].
        - assert (g <> f). { intros ->. assert (T : String.prefix w f = true) by (apply prefix_app; exists r; exact E). congruence. }
          cbn [app]. destruct (in_dec string_dec f fs), (in_dec string_dec f (g :: fs)) as [X|X]; auto; exfalso; cbn in X; tauto. }
      rewrite G2 by (auto; intros z Z; exact Z).
      destruct (in_dec string_dec f (flags x)) as [X|X], (in_dec string_dec f (flat_map flags l)) as [Y|Y], (in_dec string_dec f (flags x ++ flat_map flags l)) as [Z|Z]; auto; exfalso;
        try (apply Z, in_or_app; tauto); try (apply in_app_or in Z; tauto). exact (N3 _ X Y). }
    rewrite G by (auto; intros z Z; exact Z). destruct (in_dec string_dec f (flat_map flags os)) as [_|X]; [reflexivity|destruct X; eapply flag_of; eauto].
  Qed.
  Lemma names_word w o : names os w o -> ~ In "="%char (chars w) /\ first_is dash w = true /\ String.length w =? 1 = false /\ w <> "--"%string.
  Proof.
    intros [I [F|[NE [[c [t ->]] _]]]]; [|split; [exact NE|split; [reflexivity|split; [reflexivity|discriminate]]]].
    apply (flag_of o w I) in F. apply flag_good in F. destruct F as [NE [c [t [-> [_ [_ D]]]]]]. split; [exact NE|split; [reflexivity|split; [reflexivity|]]].
    intro E. injection E as -> ->. apply D; reflexivity.
  Qed.
  (** A word that names an option is classified as that option. *)
  Lemma parse_names w o : names os w o -> exists f, In f (flags o) /\ parse_optional os w = Done (Option_ (Some o) f None).
  Proof.
    intro N. destruct (names_word w o N) as [NE [FD [L1 _]]]. destruct N as [I N]. unfold parse_optional. rewrite FD. cbn [negb].
    destruct (in_dec string_dec w (flat_map flags os)) as [X|X].
    - exists w. destruct N as [F|[_ [_ [f [F [E U]]]]]].
      + split; [exact F|]. rewrite (find_flag_some w o I F). reflexivity.
      + assert (w = f). { apply U; [exact X|]. exists EmptyString. clear. induction w; cbn; [reflexivity|]. f_equal. exact IHw. } subst f.
        split; [exact F|]. rewrite (find_flag_some w o I F). reflexivity.
    - rewrite (find_flag_none w X), L1, (split_eq_none w NE).
      destruct N as [F|[_ [[c [t W]] [f [F [E U]]]]]]; [destruct X; eapply flag_of; eauto|]. exists f. split; [exact F|].
      rewrite (option_tuples_long w None w f o c t W); auto; [apply split_eq_none, NE|]. exists EmptyString. clear. induction w; cbn; [reflexivity|]. f_equal. exact IHw.
  Qed.
  Lemma parse_names_equals w a o : names os w o -> exists f, In f (flags o) /\ parse_optional os (w ++ "=" ++ a) = Done (Option_ (Some o) f (Some a)).
  Proof.
    intro N. destruct (names_word w o N) as [NE [FD [L1 _]]]. destruct N as [I N]. unfold parse_optional.
    assert (first_is dash (w ++ "=" ++ a) = true) as -> by (destruct w; [discriminate|exact FD]). cbn [negb].
    assert (NF : ~ In (w ++ "=" ++ a)%string (flat_map flags os)).
    { intro X. apply flag_good in X. destruct X as [X _]. apply X. rewrite !chars_app. apply in_or_app. right. left. reflexivity. }
    rewrite (find_flag_none _ NF).
    assert (String.length (w ++ "=" ++ a) =? 1 = false) as ->.
    { destruct w as [|x [|y w]]; [discriminate|cbn in L1; discriminate|reflexivity]. }
    rewrite (split_eq_app w a NE).
    destruct (in_dec string_dec w (flat_map flags os)) as [X|X].
    - exists w. destruct N as [F|[_ [_ [f [F [E U]]]]]].
      + split; [exact F|]. rewrite (find_flag_some w o I F). reflexivity.
      + assert (w = f). { apply U; [exact X|]. exists EmptyString. clear. induction w; cbn; [reflexivity|]. f_equal. exact IHw. } subst f.
        split; [exact F|]. rewrite (find_flag_some w o I F). reflexivity.
    - rewrite (find_flag_none w X). destruct N as [F|[_ [[c [t W]] [f [F [E U]]]]]]; [destruct X; eapply flag_of; eauto|]. exists f. split; [exact F|].
      rewrite (option_tuples_long w (Some a) (w ++ "=" ++ a) f o c t W); auto; [apply split_eq_app, NE|discriminate|]. exists ("=" ++ a)%string. reflexivity.
  Qed.
End Options.

(** ** Attributes *)
Lemma getattr_setattr d v ns x : getattr (setattr d v ns) x = if String.eqb d x then Some v else getattr ns x.
Proof.
  induction ns as [|[y w] t IH]; cbn; [reflexivity|]. destruct (String.eqb_spec y d) as [->|N]; cbn.
  - destruct (String.eqb_spec d x); reflexivity.
  - rewrite IH. destruct (String.eqb_spec y x) as [->|_]; [|reflexivity]. destruct (String.eqb_spec d x); congruence.
Qed.
Lemma getattr_app a b x : getattr (a ++ b) x = either (getattr a x) (getattr b x).
Proof. induction a as [|[y w] t IH]; cbn; [reflexivity|]. destruct (String.eqb y x); [reflexivity|exact IH]. Qed.
Lemma getattr_add_defaults l ns x : getattr (fold_left add_default l ns) x = either (getattr ns x) (getattr l x).
Proof.
  revert ns. induction l as [|[d v] t IH]; intro ns; cbn [fold_left]; [cbn; destruct (getattr ns x); reflexivity|].
  rewrite IH. unfold add_default. cbn [fst getattr]. destruct (getattr ns d) as [w|] eqn:E.
  - destruct (String.eqb_spec d x) as [->|_]; [rewrite E|]; reflexivity.
  - rewrite getattr_app. cbn [getattr]. destruct (String.eqb_spec d x) as [->|_]; [rewrite E; reflexivity|destruct (getattr ns x); reflexivity].
Qed.
Lemma getattr_initial p d : getattr (initial p) d = default_value p d.
Proof.
  unfold initial, default_value. rewrite getattr_add_defaults. cbn [getattr either]. rewrite getattr_app.
  induction (options p) as [|o t IH]; cbn [flat_map find].
  - cbn [getattr either app]. induction (constants p) as [|[y w] u IHu]; cbn [getattr find fst snd]; [reflexivity|]. destruct (String.eqb y d); [reflexivity|exact IHu].
  - rewrite getattr_app. destruct (act o) eqn:A; cbn [app getattr either]; rewrite ?andb_true_r, ?andb_false_r; try exact IH; destruct (String.eqb (dest o) d); cbn [either]; try reflexivity; exact IH.
Qed.
(** What taking an option leaves. *)
Definition put (st : state) (ov : opt * value) : state :=
  {| attrs := setattr (dest (fst ov)) (snd ov) (attrs st); seen := flags (fst ov) :: seen st; left := left st; extras := extras st |}.
Lemma fold_put l st : let st' := fold_left put l st in
  left st' = left st /\ extras st' = extras st /\ seen st' = rev (map (fun ov => flags (fst ov)) l) ++ seen st /\
  forall d, getattr (attrs st') d = either (assigned l d) (getattr (attrs st) d).
Proof.
  revert st. induction l as [|[o v] t IH]; intro st; cbn [fold_left]; [repeat split; reflexivity|].
  destruct (IH (put st (o, v))) as [A [B [C D]]]. split; [exact A|]. split; [exact B|]. split.
  - rewrite C. cbn [map rev seen put fst]. rewrite <- app_assoc. reflexivity.
  - intro d. rewrite D. cbn [put attrs fst snd assigned]. rewrite getattr_setattr. destruct (assigned t d); [reflexivity|]. destruct (String.eqb (dest o) d); reflexivity.
Qed.

(** ** Consuming settings *)
Section Settings.
  Context (rf : string -> option R).
  Lemma convert_reads k s v : reads rf k s v -> convert rf k s = Some v.
  Proof. intros [? ? H|? ? H|]; cbn; rewrite ?H; reflexivity. Qed.
  Lemma allowed_permitted k s v c : reads rf k s v -> permitted c v -> allowed c v = true.
  Proof.
    intros H P. destruct c as [l|]; [|reflexivity]. cbn in *. apply existsb_exists. exists v. split; [exact P|].
    destruct H; cbn; [apply Z.eqb_refl| |apply eqb_refl_string]. destruct (Req_EM_T x x); congruence.
  Qed.
  Lemma get_value_ok k c s v : reads rf k s v -> permitted c v -> get_value rf k c s = Done v.
  Proof. intros H P. unfold get_value. rewrite (convert_reads k s v H), (allowed_permitted k s v c H P). reflexivity. Qed.
  Lemma get_list_ok k c ss vs : Forall2 (fun s v => reads rf k s v /\ permitted c v) ss vs -> get_list rf k c ss = Done vs.
  Proof. induction 1 as [|s v ss vs [H P] _ IH]; [reflexivity|]. cbn [get_list]. rewrite (get_value_ok k c s v H P). cbn. rewrite IH. reflexivity. Qed.
  Lemma remove_separator_id l : ~ In "--"%string l -> remove_separator l = l.
  Proof. clear rf. induction l as [|s t IH]; cbn; [reflexivity|]. intro H. destruct (String.eqb_spec s "--") as [->|_]; [tauto|]. rewrite IH by tauto. reflexivity. Qed.
  Lemma take_action_ok o args v st : means rf o args v -> ~ In "--"%string args -> take_action rf o args st = Done (put st (o, v)).
  Proof.
    intros M N. unfold take_action. destruct M as [b A|n k c s v A NM H P|k c A|k c ss vs A NN H]; rewrite A; [reflexivity| | |].
    - unfold get_values. rewrite (remove_separator_id [s] N). destruct n; [| |congruence]; rewrite (get_value_ok k c s v H P); reflexivity.
    - reflexivity.
    - unfold get_values. rewrite (remove_separator_id ss N). cbn. rewrite (get_list_ok k c ss vs H). reflexivity.
  Qed.

  Definition no_arg_first (rest : list (token * string)) : Prop := match rest with (Arg, _) :: _ => False | _ => True end.
  Lemma span_args (args : list string) rest : no_arg_first rest -> fst (span is_arg (map (fun x => (Arg, x)) args ++ rest)) = map (fun x => (Arg, x)) args.
  Proof. clear rf.
    intro H. induction args as [|a t IH].
    - cbn [map app]. destruct rest as [|[[| |] s] u]; [reflexivity|destruct H|reflexivity|reflexivity].
    - cbn [map app span is_arg fst]. destruct (span is_arg (map (fun x => (Arg, x)) t ++ rest)) as [x y]. cbn [fst] in *. rewrite IH. reflexivity.
  Qed.
  Lemma arg_count_ok o args v rest : means rf o args v -> fixed_arity o \/ no_arg_first rest ->
    arg_count (act o) (map (fun x => (Arg, x)) args ++ rest) = Done (length args).
  Proof.
    intros M H. destruct M as [b A|n k c s v A NM _ _|k c A|k c ss vs A NN _]; rewrite A; unfold arg_count; [reflexivity| | |].
    - destruct n; [| |congruence]; cbn [map app span is_arg fst]; destruct (span is_arg rest) as [x y]; reflexivity.
    - destruct H as [H|H]; [unfold fixed_arity in H; rewrite A in H; destruct H|]. rewrite (span_args [] rest H). reflexivity.
    - destruct H as [H|H]; [unfold fixed_arity in H; rewrite A in H; destruct H|]. rewrite (span_args ss rest H), map_length. destruct ss; [congruence|reflexivity].
  Qed.
  Lemma firstn_map_app {A B} (f : A -> B) l r : firstn (length l) (map f l ++ r) = map f l.
  Proof. clear rf. rewrite <- (map_length f l), firstn_app, Nat.sub_diag, firstn_all, firstn_O, app_nil_r. reflexivity. Qed.
  Lemma skipn_map_app {A B} (f : A -> B) l r : skipn (length l) (map f l ++ r) = r.
  Proof. clear rf. rewrite <- (map_length f l), skipn_app, Nat.sub_diag, skipn_all. reflexivity. Qed.

  Context (os : list opt) (OK : flags_ok os) (pos : state -> list (token * string) -> parsed (state * list (token * string))).
  (** The arguments of a word, and what consuming them does. *)
  Definition read_as (toks : list (token * string)) (l : list string) : Prop :=
    Forall2 (fun t x => x <> "--"%string /\ parse_optional os x = Done (fst t) /\ snd t = x) toks l.
  Lemma read_as_args args : Forall plain args -> read_as (map (fun x => (Arg, x)) args) args.
  Proof. induction 1 as [|x t P _ IH]; [constructor|]. cbn [map]. constructor; [|exact IH]. split; [apply plain_not_separator, P|]. split; [apply (parse_plain os OK), P|reflexivity]. Qed.
  Lemma setting_step s o v : denotes rf os s (o, v) -> exists t toks, is_option t = true /\ read_as (t :: toks) (text s) /\
    forall fuel st rest, fixed_arity o \/ no_arg_first rest -> consume rf os pos (S fuel) st ((t :: toks) ++ rest) = consume rf os pos fuel (put st (o, v)) rest.
  Proof.
    intro D. inversion D as [w args o' v' N P M E1 E2|w a o' v' N P M E1 E2]; subst.
    - destruct (names_word os OK w o N) as [_ [_ [_ NS]]]. destruct (parse_names os OK w o N) as [f [F E]].
      exists (Option_ (Some o) f None, w), (map (fun x => (Arg, x)) args). split; [reflexivity|]. split.
      + constructor; [split; [exact NS|split; [exact E|reflexivity]]|apply read_as_args, P].
      + intros fuel st rest H. cbn [app consume existsb is_option fst orb]. unfold option_actions. rewrite (arg_count_ok o args v rest M H). cbn [andthen fst snd].
        rewrite firstn_map_app, skipn_map_app, map_map. cbn [snd]. rewrite map_id. cbn [take_actions].
        rewrite (take_action_ok o args v st M); [reflexivity|]. intro I. rewrite Forall_forall in P. exact (plain_not_separator _ (P _ I) eq_refl).
    - destruct (parse_names_equals os OK w a o N) as [f [F E]].
      exists (Option_ (Some o) f (Some a), (w ++ "=" ++ a)%string), []. split; [reflexivity|]. split.
      + constructor; [|constructor]. split; [|split; [exact E|reflexivity]]. intro X.
        assert (Y : In "="%char (chars (w ++ "=" ++ a))) by (rewrite !chars_app; apply in_or_app; right; left; reflexivity). rewrite X in Y. cbn in Y.
        destruct Y as [Y|[Y|[]]]; discriminate.
      + intros fuel st rest H. cbn [app consume existsb is_option fst orb]. unfold option_actions.
        assert (joined os o f a rest = Done ([(o, [a])], 0)) as ->.
        { assert (takes_nothing (act o) = false) as T by (inversion M as [? A|? ? ? ? ? A|? ? A|? ? ? ? A]; rewrite A; reflexivity).
          destruct a; cbn [joined]; rewrite T; reflexivity. }
        cbn [andthen fst snd take_actions skipn]. rewrite (take_action_ok o [a] v st M); [reflexivity|]. intros [X|[]]. congruence.
  Qed.
  Lemma settings_steps ss l : Forall2 (denotes rf os) ss l -> exists toks, read_as toks (flat_map text ss) /\ length ss <= length toks /\
    (ss <> [] -> exists t u, toks = t :: u /\ is_option t = true) /\
    forall fuel st rest, Forall (fun ov => fixed_arity (fst ov)) l \/ no_arg_first rest ->
      consume rf os pos (length ss + fuel) st (toks ++ rest) = consume rf os pos fuel (fold_left put l st) rest.
  Proof.
    induction 1 as [|s [o v] ss l D F IH]; [exists []; repeat split; [constructor|cbn; lia|congruence]|].
    destruct IH as [toks [RA [LE [HD ST]]]]. destruct (setting_step s o v D) as [t [u [IO [RT STEP]]]].
    exists ((t :: u) ++ toks). split; [cbn [flat_map]; apply Forall2_app; assumption|]. split; [rewrite app_length; cbn [length]; lia|].
    split; [intros _; exists t, (u ++ toks); auto|]. intros fuel st rest H. rewrite <- app_assoc. cbn [length plus]. rewrite STEP.
    - cbn [fold_left]. apply ST. destruct H as [H|H]; [left; inversion H; auto|right; exact H].
    - destruct H as [H|H]; [left; inversion H; auto|]. right. destruct ss as [|s' ss].
      + inversion F; subst. inversion RA; subst. exact H.
      + destruct HD as [t' [u' [-> IO']]]; [discriminate|]. cbn. destruct t' as [[| |] x]; [discriminate|exact Logic.I|exact Logic.I].
  Qed.
  Lemma classify_app toks l l2 : read_as toks l -> classify os (l ++ l2) = andthen (classify os l2) (fun r => Done (toks ++ r)).
  Proof.
    induction 1 as [|[k x] y toks l [N [P E]] _ IH]; cbn [app].
    - destruct (classify os l2); reflexivity.
    - cbn [classify]. destruct (String.eqb_spec y "--") as [->|_]; [congruence|]. rewrite P. cbn [andthen fst]. rewrite IH. cbn [fst snd] in E. subst x. destruct (classify os l2); reflexivity.
  Qed.

  (** The required options. *)
  Lemma is_seen_ok st l : (forall o, In o (map fst l) -> In o os) -> seen st = rev (map (fun ov : opt * value => flags (fst ov)) l) ->
    forall o, In o os -> (is_seen st o = true <-> In o (map fst l)).
  Proof.
    intros SUB E o I. unfold is_seen. rewrite existsb_exists, E. split.
    - intros [f [F X]]. destruct (list_eq_dec string_dec f (flags o)) as [->|]; [|discriminate]. apply in_rev, in_map_iff in F. destruct F as [[o' v] [EF IN]]. cbn in EF.
      assert (In o' (map fst l)) as I' by (apply in_map_iff; exists (o', v); auto).
      destruct OK as [ND [_ NE]]. rewrite Forall_forall in NE. destruct (flags o) as [|g u] eqn:FG; [destruct (NE o I FG)|].
      assert (o' = o) as <-; [|exact I']. apply (nodup_flat o' o g os ND (SUB _ I') I); [rewrite EF|rewrite FG]; left; reflexivity.
    - intro H. apply in_map_iff in H. destruct H as [[o' v] [EO IN]]. cbn in EO. subst o'. exists (flags o). split.
      + apply -> in_rev. apply in_map_iff. exists (o, v). auto.
      + destruct (list_eq_dec string_dec (flags o) (flags o)); congruence.
  Qed.
  Lemma denotes_in ss l : Forall2 (denotes rf os) ss l -> forall o, In o (map fst l) -> In o os.
  Proof.
    induction 1 as [|s [o v] ss l D _ IH]; cbn; [tauto|]. intros x [->|H]; [|auto]. inversion D as [? ? ? ? [N _]|? ? ? ? [N _]]; exact N.
  Qed.
End Settings.

(** ** Whole command lines *)
Lemma complete_dec p l : (forall o, In o (map fst l) -> In o (options p)) -> forall st, flags_ok (options p) ->
  seen st = rev (map (fun ov : opt * value => flags (fst ov)) l) ->
  (complete p l /\ existsb (fun o => required o && negb (is_seen st o)) (options p) = false) \/
  (~ complete p l /\ existsb (fun o => required o && negb (is_seen st o)) (options p) = true).
Proof.
  intros SUB st OK E. destruct (existsb _ (options p)) eqn:X.
  - right. split; [|reflexivity]. apply existsb_exists in X. destruct X as [o [I X]]. apply andb_true_iff in X. destruct X as [R NS]. apply negb_true_iff in NS.
    intro C. specialize (C o I R). apply (is_seen_ok (options p) OK st l SUB E o I) in C. congruence.
  - left. split; [|reflexivity]. intros o I R. apply (is_seen_ok (options p) OK st l SUB E o I).
    destruct (is_seen st o) eqn:S; [reflexivity|]. exfalso.
    assert (T : existsb (fun o => required o && negb (is_seen st o)) (options p) = true) by (apply existsb_exists; exists o; split; [exact I|rewrite R, S; reflexivity]).
    congruence.
Qed.
Section Whole.
  Context (rf : string -> option R).
  Lemma parse_known_settings p pos ss l : (forall st r, left st = NoPositional -> pos st r = Done (st, r)) -> flags_ok (options p) ->
    Forall2 (denotes rf (options p)) ss l ->
    (complete p l -> parse_known rf p NoPositional pos (flat_map text ss) = Done (fold_left put l {| attrs := initial p; seen := []; left := NoPositional; extras := [] |})) /\
    (~ complete p l -> parse_known rf p NoPositional pos (flat_map text ss) = Exit 2).
  Proof.
    intros HP OK F. destruct (settings_steps rf (options p) OK pos ss l F) as [toks [RA [LE [_ ST]]]]. unfold parse_known.
    pose proof (classify_app (options p) toks (flat_map text ss) [] RA) as CL. rewrite app_nil_r in CL. cbn [classify andthen] in CL. rewrite app_nil_r in CL. rewrite CL. cbn [andthen].
    set (s0 := {| attrs := initial p; seen := []; left := NoPositional; extras := [] |}).
    assert (E : consume rf (options p) pos (S (length toks)) s0 toks = Done (fold_left put l s0)).
    { replace (S (length toks)) with (length ss + S (length toks - length ss)) by lia. rewrite <- (app_nil_r toks) at 2. rewrite ST by (right; exact Logic.I).
      destruct (fold_put l s0) as [A [B _]]. cbn [consume existsb]. rewrite HP by (rewrite A; reflexivity). cbn [andthen fst snd]. unfold add_extras. cbn [map]. rewrite app_nil_r.
      destruct (fold_left put l s0); reflexivity. }
    rewrite E. cbn [andthen]. destruct (fold_put l s0) as [A [_ [C _]]]. cbn [s0 seen] in C. rewrite app_nil_r in C. rewrite A. cbn [left s0 orb]. rewrite orb_false_r.
    destruct (complete_dec p l (denotes_in rf (options p) ss l F) _ OK C) as [[H ->]|[H ->]]; split; intro X; tauto || reflexivity.
  Qed.

  (** *** Subcommands *)
  Lemma nodup_setattr d v ns : NoDup (map fst ns) -> NoDup (map fst (setattr d v ns)) /\ forall x, In x (map fst (setattr d v ns)) <-> x = d \/ In x (map fst ns).
  Proof. clear rf.
    induction ns as [|[y w] t IH]; cbn; intro N; [split; [constructor; [tauto|constructor]|intro x; intuition congruence]|]. inversion N as [|? ? NI NT]; subst.
    destruct (String.eqb_spec y d) as [->|ND]; cbn; [split; [exact N|intro x; intuition congruence]|]. destruct (IH NT) as [A B]. split.
    - constructor; [|exact A]. rewrite B. intuition congruence.
    - intro x. rewrite B. intuition congruence.
  Qed.
  Lemma getattr_none ns d : getattr ns d = None <-> ~ In d (map fst ns).
  Proof. clear rf.
    induction ns as [|[y w] t IH]; cbn; [tauto|]. destruct (String.eqb_spec y d) as [->|N]; [split; [discriminate|tauto]|]. rewrite IH. intuition congruence.
  Qed.
  Lemma nodup_add_defaults l ns : NoDup (map fst ns) -> NoDup (map fst (fold_left add_default l ns)).
  Proof. clear rf.
    revert ns. induction l as [|d t IH]; intros ns N; cbn [fold_left]; [exact N|]. apply IH. unfold add_default. destruct (getattr ns (fst d)) eqn:E; [exact N|].
    rewrite map_app. cbn. apply getattr_none in E. clear IH. induction (map fst ns) as [|x u IHu]; cbn; [constructor; [tauto|constructor]|]. inversion N; subst.
    constructor; [|apply IHu; [assumption|intro; apply E; right; assumption]]. rewrite in_app_iff. cbn. intros [X|[X|[]]]; [tauto|]. apply E. left. congruence.
  Qed.
  Lemma nodup_initial p : NoDup (map fst (initial p)).
  Proof. clear rf. apply nodup_add_defaults. constructor. Qed.
  Lemma nodup_fold_put l st : NoDup (map fst (attrs st)) -> NoDup (map fst (attrs (fold_left put l st))).
  Proof. clear rf. revert st. induction l as [|ov t IH]; intros st N; cbn [fold_left]; [exact N|]. apply IH. cbn [put attrs]. apply nodup_setattr, N. Qed.
  Lemma copy_attrs sub ns d : NoDup (map fst sub) -> getattr (fold_left (fun ns d => setattr (fst d) (snd d) ns) sub ns) d = either (getattr sub d) (getattr ns d).
  Proof. clear rf.
    revert ns. induction sub as [|[x v] t IH]; intros ns N; cbn [fold_left]; [reflexivity|]. inversion N as [|? ? NI NT]; subst. rewrite IH by exact NT. cbn [fst snd getattr].
    rewrite getattr_setattr. destruct (String.eqb_spec x d) as [->|_]; [|reflexivity]. apply getattr_none in NI. rewrite NI. reflexivity.
  Qed.

  (** A parser whose option strings with two dashes differ in the next letter never finds a word with two dashes ambiguous. *)
  Lemma tuples_flags os s : match s with EmptyString => false | String _ t0 => first_is dash t0 end = true ->
    map (fun t => snd (fst t)) (option_tuples os s) = filter (String.prefix (match split_eq s with Some (a, _) => a | None => s end)) (flat_map flags os).
  Proof. clear rf.
    intro D. unfold option_tuples. rewrite D. destruct (split_eq s) as [[a b]|]; cbn [fst snd].
    - induction os as [|o t IH]; [reflexivity|]. cbn [flat_map]. rewrite map_app, filter_app, IH. f_equal. induction (flags o) as [|f u IHu]; [reflexivity|]. cbn [flat_map filter]. rewrite map_app, IHu. destruct (String.prefix a f); reflexivity.
    - induction os as [|o t IH]; [reflexivity|]. cbn [flat_map]. rewrite map_app, filter_app, IH. f_equal. induction (flags o) as [|f u IHu]; [reflexivity|]. cbn [flat_map filter]. rewrite map_app, IHu. destruct (String.prefix s f); reflexivity.
  Qed.
  Lemma split_eq_first c t a b : split_eq (String "-" (String "-" (String c t))) = Some (a, b) -> c <> "="%char -> exists u, a = String "-" (String "-" (String c u)).
  Proof. clear rf.
    cbn. intros H N. destruct (Ascii.eqb_spec c "="%char) as [E|_]; [congruence|]. destruct (split_eq t) as [[x y]|]; [|discriminate]. injection H as <- <-. exists x. reflexivity.
  Qed.
  Lemma parse_long os c t : flags_ok os -> different_letters os -> c <> "="%char -> exists k, parse_optional os (String "-" (String "-" (String c t))) = Done k.
  Proof. clear rf.
    intros [ND [FO NE]] DL NC. set (s := String "-" (String "-" (String c t))). unfold parse_optional. change (first_is dash s) with true. cbn [negb].
    destruct (find_flag os s) as [o|]; [eauto|]. change (String.length s =? 1) with false. cbn [orb].
    destruct (match split_eq s with Some (a, b) => match find_flag os a with Some o => Some (o, a, b) | None => None end | None => None end) as [[[o a] b]|]; [eauto|].
    pose proof (tuples_flags os s eq_refl) as T.
    assert (P : exists u, match split_eq s with Some (a, _) => a | None => s end = String "-" (String "-" (String c u))).
    { destruct (split_eq s) as [[a b]|] eqn:E; [exact (split_eq_first c t a b E NC)|exists t; reflexivity]. }
    destruct P as [u P]. rewrite P in T.
    destruct (option_tuples os s) as [|[[o1 f1] e1] [|[[o2 f2] e2] r]]; [destruct (negative_number s); [eauto|destruct (has_space s); eauto]|eauto|].
    exfalso. cbn [map fst snd] in T.
    assert (N : NoDup (f1 :: f2 :: map (fun t0 : opt * string * option string => snd (fst t0)) r)) by (rewrite T; apply NoDup_filter, ND).
    assert (I1 : In f1 (filter (String.prefix (String "-" (String "-" (String c u)))) (flat_map flags os))) by (rewrite <- T; left; reflexivity).
    assert (I2 : In f2 (filter (String.prefix (String "-" (String "-" (String c u)))) (flat_map flags os))) by (rewrite <- T; right; left; reflexivity).
    apply filter_In in I1. destruct I1 as [I1 E1]. apply filter_In in I2. destruct I2 as [I2 E2]. apply prefix_app in E1. apply prefix_app in E2. destruct E1 as [r1 E1]. destruct E2 as [r2 E2].
    assert (f1 = f2) as -> by exact (DL f1 f2 c _ _ I1 I2 E1 E2). inversion N as [|? ? X _]. apply X. left. reflexivity.
  Qed.

  (** How the parser of the command reads the words of the subcommand. *)
  Lemma names_long q w o args v : flags_ok (options q) -> (forall o, In o (options q) -> act o <> Help -> Forall long (flags o)) -> names (options q) w o -> means rf o args v ->
    exists c t, w = String "-" (String "-" (String c t)) /\ c <> "="%char.
  Proof.
    intros OK LG N M. destruct (names_word (options q) OK w o N) as [NE _]. destruct N as [I N].
    assert (L : exists c t, w = String "-" (String "-" (String c t))).
    { destruct N as [F|[_ [L _]]]; [|exact L]. assert (A : act o <> Help) by (inversion M as [? A|? ? ? ? ? A|? ? A|? ? ? ? A]; rewrite A; discriminate).
      specialize (LG o I A). rewrite Forall_forall in LG. exact (LG w F). }
    destruct L as [c [t ->]]. exists c, t. split; [reflexivity|]. intros ->. apply NE. right. right. left. reflexivity.
  Qed.
  Lemma readable p q ss l : flags_ok (options p) -> different_letters (options p) -> flags_ok (options q) ->
    (forall o, In o (options q) -> act o <> Help -> Forall long (flags o)) -> Forall2 (denotes rf (options q)) ss l ->
    exists toks, read_as (options p) toks (flat_map text ss).
  Proof.
    intros OP DL OQ LG. induction 1 as [|s [o v] ss l D _ [toks IH]]; [exists []; constructor|].
    assert (X : exists ts, read_as (options p) ts (text s)).
    { inversion D as [w args o' v' N P M E1 E2|w a o' v' N P M E1 E2]; subst.
      - destruct (names_long q w o args v OQ LG N M) as [c [t [W NC]]]. destruct (parse_long (options p) c t OP DL NC) as [k K].
        exists ((k, w) :: map (fun x => (Arg, x)) args). constructor; [|apply read_as_args; assumption].
        split; [destruct (names_word (options q) OQ w o N) as [_ [_ [_ NS]]]; exact NS|]. rewrite W at 1. rewrite K. auto.
      - destruct (names_long q w o [a] v OQ LG N M) as [c [t [W NC]]]. subst w. destruct (parse_long (options p) c (t ++ "=" ++ a) OP DL NC) as [k K].
        exists [(k, (String "-" (String "-" (String c t)) ++ "=" ++ a)%string)]. constructor; [|constructor]. split; [discriminate|]. split; [exact K|reflexivity]. }
    destruct X as [ts X]. exists (ts ++ toks). cbn [flat_map]. apply Forall2_app; assumption.
  Qed.
  Lemma read_as_snd os toks l : read_as os toks l -> map snd toks = l.
  Proof. clear rf. induction 1 as [|t x toks l [_ [_ E]] _ IH]; [reflexivity|]. cbn. rewrite E, IH. reflexivity. Qed.

  (** Reaching the subcommand. *)
  Lemma consume_command p table name rest l st fuel : left st = Command table -> st = fold_left put l {| attrs := initial p; seen := []; left := Command table; extras := [] |} ->
    consume rf (options p) (positionals rf) (S (S fuel)) st ((Arg, name) :: rest) =
    match find_parser table name with
    | None => Exit 2
    | Some q => andthen (parse_known rf q NoPositional no_positionals (map snd rest)) (fun sub =>
        Done {| attrs := fold_left (fun ns d => setattr (fst d) (snd d) ns) (attrs sub) (attrs st); seen := seen st; left := NoPositional; extras := extras st ++ extras sub |})
    end.
  Proof.
    intros L E. set (fuel' := S fuel). cbn [consume existsb is_option fst orb].
    assert (PO : positionals rf st ((Arg, name) :: rest) = match find_parser table name with
      | None => Exit 2
      | Some q => andthen (parse_known rf q NoPositional no_positionals (map snd rest)) (fun sub =>
        Done ({| attrs := fold_left (fun ns d => setattr (fst d) (snd d) ns) (attrs sub) (attrs st); seen := seen st; left := NoPositional; extras := extras st ++ extras sub |}, []))
      end) by (unfold positionals; rewrite L; reflexivity).
    rewrite PO. destruct (find_parser table name) as [q|]; [|destruct (existsb is_option rest); reflexivity].
    destruct (parse_known rf q NoPositional no_positionals (map snd rest)) as [sub|n|e]; [|destruct (existsb is_option rest); reflexivity|destruct (existsb is_option rest); reflexivity].
    cbn [andthen fst snd length]. destruct (existsb is_option rest).
    - change (0 <? S (length rest)) with true. cbv iota. unfold fuel'. cbn [consume existsb]. cbn [positionals left andthen fst snd]. unfold add_extras. cbn [map attrs seen left extras]. rewrite app_nil_r. reflexivity.
    - unfold add_extras. cbn [map attrs seen left extras]. rewrite app_nil_r. reflexivity.
  Qed.
  Lemma commands_settings p table name q ss l ss' l' : flags_ok (options p) -> flags_ok (options q) -> different_letters (options p) ->
    (forall o, In o (options q) -> act o <> Help -> Forall long (flags o)) -> find_parser table name = Some q -> (forall t, name <> String "-" t) ->
    Forall2 (denotes rf (options p)) ss l -> Forall (fun ov => fixed_arity (fst ov)) l -> Forall2 (denotes rf (options q)) ss' l' ->
    (complete p l -> complete q l' -> exists ns, parse_args rf p (Command table) (flat_map text ss ++ name :: flat_map text ss') = Done ns /\
       forall d, getattr ns d = either (expected q l' d) (expected p l d)) /\
    (~ complete p l \/ ~ complete q l' -> parse_args rf p (Command table) (flat_map text ss ++ name :: flat_map text ss') = Exit 2).
  Proof.
    intros OP OQ DL LG FQ NN F FA F'. destruct (settings_steps rf (options p) OP (positionals rf) ss l F) as [toks [RA [LE [_ ST]]]].
    destruct (readable p q ss' l' OP DL OQ LG F') as [toks' RA'].
    destruct (parse_known_settings q no_positionals ss' l' (fun _ _ _ => eq_refl) OQ F') as [SUB1 SUB2].
    set (s0 := {| attrs := initial p; seen := []; left := Command table; extras := [] |}).
    set (stq := fold_left put l' {| attrs := initial q; seen := []; left := NoPositional; extras := [] |}) in SUB1.
    assert (CL : classify (options p) (flat_map text ss ++ name :: flat_map text ss') = Done (toks ++ (Arg, name) :: toks')).
    { rewrite (classify_app (options p) toks _ _ RA). assert (RB : read_as (options p) ((Arg, name) :: toks') (name :: flat_map text ss')).
      { constructor; [|exact RA']. assert (plain name) as P by (left; exact NN). split; [apply plain_not_separator, P|]. split; [apply (parse_plain (options p) OP), P|reflexivity]. }
      rewrite <- (app_nil_r (name :: flat_map text ss')), (classify_app (options p) _ _ _ RB). cbn [classify andthen]. rewrite app_nil_r. reflexivity. }
    assert (K : parse_known rf p (Command table) (positionals rf) (flat_map text ss ++ name :: flat_map text ss') =
      andthen (parse_known rf q NoPositional no_positionals (flat_map text ss')) (fun sub =>
        let st := {| attrs := fold_left (fun ns d => setattr (fst d) (snd d) ns) (attrs sub) (attrs (fold_left put l s0)); seen := seen (fold_left put l s0); left := NoPositional; extras := extras sub |} in
        if existsb (fun o => required o && negb (is_seen st o)) (options p) then Exit 2 else Done st)).
    { unfold parse_known at 1. rewrite CL. cbn [andthen].
      replace (S (length (toks ++ (Arg, name) :: toks'))) with (length ss + S (S (length toks + length toks' - length ss))) by (rewrite app_length; cbn [length]; lia).
      fold s0. rewrite ST by (left; exact FA). destruct (fold_put l s0) as [A [B _]]. rewrite (consume_command p table name toks' l); [|rewrite A; reflexivity|reflexivity].
      rewrite FQ, (read_as_snd _ _ _ RA'). destruct (parse_known rf q NoPositional no_positionals (flat_map text ss')); [|reflexivity|reflexivity].
      cbn [andthen]. rewrite B. cbn [extras s0 app left]. rewrite orb_false_r. reflexivity. }
    destruct (fold_put l s0) as [A [B [C D]]]. cbn [s0 seen] in C. rewrite app_nil_r in C.
    destruct (fold_put l' {| attrs := initial q; seen := []; left := NoPositional; extras := [] |}) as [A' [B' [C' D']]]. fold stq in A', B', C', D'.
    set (st := {| attrs := fold_left (fun ns d => setattr (fst d) (snd d) ns) (attrs stq) (attrs (fold_left put l s0)); seen := seen (fold_left put l s0); left := NoPositional; extras := extras stq |}).
    destruct (complete_dec p l (denotes_in rf (options p) ss l F) st OP C) as [[H E]|[H E]]; split.
    - intros _ CQ. exists (attrs st). split.
      + unfold parse_args. replace p with p at 1 by reflexivity. cbv iota. rewrite K, (SUB1 CQ). cbn [andthen]. cbv zeta. fold st. rewrite E. cbn [andthen extras st]. rewrite B'. reflexivity.
      + intro d. cbn [attrs st]. rewrite copy_attrs by (apply nodup_fold_put, nodup_initial). rewrite D, D'. cbn [attrs s0]. rewrite !getattr_initial. reflexivity.
    - intros [X|X]; [tauto|]. unfold parse_args. rewrite K, (SUB2 X). reflexivity.
    - tauto.
    - intros _. unfold parse_args. rewrite K. destruct (parse_known rf q NoPositional no_positionals (flat_map text ss')) as [sub|n|e] eqn:PK.
      + cbn [andthen]. cbv zeta. destruct (complete_dec p l (denotes_in rf (options p) ss l F)
          {| attrs := fold_left (fun ns d => setattr (fst d) (snd d) ns) (attrs sub) (attrs (fold_left put l s0)); seen := seen (fold_left put l s0); left := NoPositional; extras := extras sub |} OP C) as [[H' _]|[_ ->]]; [tauto|reflexivity].
      + assert (DEC : complete q l' \/ ~ complete q l') by (destruct (complete_dec q l' (denotes_in rf (options q) ss' l' F') stq OQ (eq_trans C' (app_nil_r _))) as [[X _]|[X _]]; auto).
        destruct DEC as [X|X]; [discriminate (SUB1 X)|]. rewrite (SUB2 X). reflexivity.
      + assert (DEC : complete q l' \/ ~ complete q l') by (destruct (complete_dec q l' (denotes_in rf (options q) ss' l' F') stq OQ (eq_trans C' (app_nil_r _))) as [[X _]|[X _]]; auto).
        destruct DEC as [X|X]; [discriminate (SUB1 X)|discriminate (SUB2 X)].
  Qed.
End Whole.

(** ** Any command line *)
Lemma same_value_eq a b : same_value a b = true -> a = b.
Proof.
  destruct a, b; cbn; try discriminate; intro H.
  - apply Z.eqb_eq in H. congruence.
  - destruct (Req_EM_T x x0); congruence.
  - apply String.eqb_eq in H. congruence.
Qed.
Section Any.
  Context (rf : string -> option R).
  Lemma get_value_typed k c s v : get_value rf k c s = Done v -> typed k v /\ permitted c v.
  Proof.
    unfold get_value. destruct (convert rf k s) as [w|] eqn:E; [|discriminate]. destruct (allowed c w) eqn:A; [|discriminate]. intro H. injection H as ->. split.
    - destruct k; cbn in E; [destruct (int_of_string s)|destruct (rf s)|]; try discriminate; injection E as <-; exact Logic.I.
    - destruct c as [l|]; [|exact Logic.I]. cbn in *. apply existsb_exists in A. destruct A as [x [I X]]. apply same_value_eq in X. subst x. exact I.
  Qed.
  Lemma get_list_typed k c l vs : get_list rf k c l = Done vs -> Forall (fun v => typed k v /\ permitted c v) vs.
  Proof.
    revert vs. induction l as [|s t IH]; intros vs H; cbn in H; [injection H as <-; constructor|].
    destruct (get_value rf k c s) as [v| |] eqn:V; [|discriminate|discriminate]. cbn in H. destruct (get_list rf k c t) as [ws| |]; [|discriminate|discriminate].
    cbn in H. injection H as <-. constructor; [apply get_value_typed with (s := s), V|apply IH; reflexivity].
  Qed.
  Definition few (o : opt) (args : list string) : Prop := match act o with Store One _ _ | Store Optional _ _ => length args <= 1 | _ => True end.
  Lemma remove_separator_length l : length (remove_separator l) <= length l.
  Proof. clear rf. induction l as [|s t IH]; cbn; [lia|]. destruct (String.eqb s "--"); cbn; lia. Qed.
  Lemma take_action_storable o args st st' : few o args -> take_action rf o args st = Done st' -> exists v, storable o v /\ st' = put st (o, v).
  Proof.
    unfold few, take_action, storable. destruct (act o) as [n k c|b|]; intros F H; [|injection H as <-; exists (VBool b); split; reflexivity|discriminate].
    destruct (get_values rf n k c args) as [v| |] eqn:V; [|discriminate|discriminate]. cbn in H. injection H as <-. exists v. split; [|reflexivity].
    pose proof (remove_separator_length args) as L. unfold get_values in V.
    destruct n; destruct (remove_separator args) as [|s [|s' l]]; cbn [length] in L; try lia.
    - cbn in V. injection V as <-. right. reflexivity.
    - left. apply get_value_typed with (s := s), V.
    - injection V as <-. right. reflexivity.
    - left. apply get_value_typed with (s := s), V.
    - cbn in V. injection V as <-. exists []. split; [reflexivity|constructor].
    - destruct (get_list rf k c [s]) as [vs| |] eqn:G; [|discriminate|discriminate]. injection V as <-. exists vs. split; [reflexivity|]. apply get_list_typed with (l := [s]), G.
    - destruct (get_list rf k c (s :: s' :: l)) as [vs| |] eqn:G; [|discriminate|discriminate]. injection V as <-. exists vs. split; [reflexivity|]. eapply get_list_typed, G.
  Qed.
  (** The options of the classified arguments are options of the parser. *)
  Definition known (os : list opt) (t : token * string) : Prop := match fst t with Option_ (Some o) _ _ => In o os | _ => True end.
  Lemma find_flag_in os s o : find_flag os s = Some o -> In o os.
  Proof. clear rf. unfold find_flag. intro H. apply find_some in H. tauto. Qed.
  Lemma option_tuples_in os s o f e : In (o, f, e) (option_tuples os s) -> In o os.
  Proof. clear rf.
    unfold option_tuples. destruct (match split_eq s with Some (a, b) => (a, Some b) | None => (s, None) end) as [start explicit]. intro H.
    apply in_flat_map in H. destruct H as [x [I H]]. apply in_flat_map in H. destruct H as [g [_ H]].
    destruct (match s with EmptyString => false | String _ t => first_is dash t end);
      repeat match type of H with context [if ?c then _ else _] => destruct c end; cbn in H; intuition congruence.
  Qed.
  Lemma parse_optional_known os s k : parse_optional os s = Done k -> known os (k, s).
  Proof. clear rf.
    unfold parse_optional, known. cbn [fst]. destruct (negb (first_is dash s)); [intro H; injection H as <-; exact Logic.I|].
    destruct (find_flag os s) as [o|] eqn:E; [intro H; injection H as <-; exact (find_flag_in os s o E)|].
    destruct (String.length s =? 1); [intro H; injection H as <-; exact Logic.I|].
    destruct (split_eq s) as [[a b]|].
    - destruct (find_flag os a) as [o|] eqn:E'; [intro H; injection H as <-; exact (find_flag_in os a o E')|].
      destruct (option_tuples os s) as [|[[o f] e] [|y r]] eqn:T; [|intro H; injection H as <-; apply (option_tuples_in os s o f e); rewrite T; left; reflexivity|discriminate].
      destruct (negative_number s); [intro H; injection H as <-; exact Logic.I|]. destruct (has_space s); intro H; injection H as <-; exact Logic.I.
    - destruct (option_tuples os s) as [|[[o f] e] [|y r]] eqn:T; [|intro H; injection H as <-; apply (option_tuples_in os s o f e); rewrite T; left; reflexivity|discriminate].
      destruct (negative_number s); [intro H; injection H as <-; exact Logic.I|]. destruct (has_space s); intro H; injection H as <-; exact Logic.I.
  Qed.
  Lemma classify_known os l toks : classify os l = Done toks -> Forall (known os) toks /\ map snd toks = l.
  Proof. clear rf.
    revert toks. induction l as [|s t IH]; intros toks H; cbn [classify] in H; [injection H as <-; split; [constructor|reflexivity]|].
    destruct (String.eqb s "--").
    - injection H as <-. split.
      + constructor; [exact Logic.I|]. apply Forall_forall. intros x X. apply in_map_iff in X. destruct X as [y [<- _]]. exact Logic.I.
      + cbn [map snd]. rewrite map_map. cbn [snd]. rewrite map_id. reflexivity.
    - destruct (parse_optional os s) as [k| |] eqn:P; [|discriminate|discriminate]. cbn in H. destruct (classify os t) as [r| |]; [|discriminate|discriminate]. cbn in H. injection H as <-.
      destruct (IH r eq_refl) as [A B]. split; [constructor; [apply parse_optional_known, P|exact A]|]. cbn. rewrite B. reflexivity.
  Qed.
  Lemma firstn_few (o : opt) rest n : arg_count (act o) rest = Done n -> few o (map snd (firstn n rest)).
  Proof. clear rf.
    unfold arg_count, few. destruct (act o) as [[| |] k c|b|]; auto; intro H.
    - destruct (length (fst (span is_arg rest)) =? 0); [discriminate|]. injection H as <-. rewrite map_length, firstn_length. lia.
    - injection H as <-. rewrite map_length, firstn_length. apply (Nat.le_trans _ (Nat.min 1 (length (fst (span is_arg rest))))); [apply Nat.le_min_l|apply Nat.le_min_l].
  Qed.
  Lemma joined_known os o flag e rest l n : In o os -> joined os o flag e rest = Done (l, n) -> Forall (fun oa => In (fst oa) os /\ few (fst oa) (snd oa)) l.
  Proof. clear rf.
    assert (F0 : forall o, takes_nothing (act o) = true -> few o []) by (intros o'; unfold few, takes_nothing; destruct (act o') as [[| |] | |]; try discriminate; auto).
    revert o flag l n. induction e as [|c e IH]; intros o flag l n I H; cbn [joined] in H.
    - destruct (takes_nothing (act o)) eqn:T.
      + destruct (match flag with EmptyString => false | String _ t => first_is dash t end); discriminate.
      + injection H as <- <-. constructor; [|constructor]. split; [exact I|]. unfold few. cbn. destruct (act o) as [[| |] | |]; auto.
    - destruct (takes_nothing (act o)) eqn:T.
      + destruct (match flag with EmptyString => false | String _ t => first_is dash t end); [discriminate|].
        destruct (find_flag os (String dash (String c EmptyString))) as [o'|] eqn:FF; [|discriminate]. apply find_flag_in in FF.
        destruct e as [|c' e'].
        * destruct (arg_count (act o') rest) as [m| |] eqn:AC; [|discriminate|discriminate]. cbn in H. injection H as <- <-.
          constructor; [split; [exact I|apply F0, T]|]. constructor; [|constructor]. split; [exact FF|]. exact (firstn_few o' rest m AC).
        * destruct (joined os o' (String dash (String c EmptyString)) (String c' e') rest) as [[l' n']| |] eqn:J; [|discriminate|discriminate]. cbn [andthen fst snd] in H.
          injection H as <- <-. constructor; [split; [exact I|apply F0, T]|]. exact (IH _ _ _ _ FF J).
      + injection H as <- <-. constructor; [|constructor]. split; [exact I|]. unfold few. cbn. destruct (act o) as [[| |] | |]; auto.
  Qed.
  Lemma option_actions_known os o flag e rest l n : In o os -> option_actions os o flag e rest = Done (l, n) -> Forall (fun oa => In (fst oa) os /\ few (fst oa) (snd oa)) l.
  Proof. clear rf.
    intros I H. unfold option_actions in H. destruct e as [a|]; [exact (joined_known os o flag a rest l n I H)|].
    destruct (arg_count (act o) rest) as [m| |] eqn:AC; [|discriminate|discriminate]. cbn in H. injection H as <- <-. constructor; [|constructor]. split; [exact I|exact (firstn_few o rest m AC)].
  Qed.
  Lemma take_actions_puts os l st st' : Forall (fun oa => In (fst oa) os /\ few (fst oa) (snd oa)) l -> take_actions rf l st = Done st' ->
    exists ovs, Forall (fun ov => In (fst ov) os /\ storable (fst ov) (snd ov)) ovs /\ st' = fold_left put ovs st.
  Proof.
    revert st. induction l as [|[o args] t IH]; intros st F H; cbn [take_actions] in H; [injection H as <-; exists []; split; [constructor|reflexivity]|].
    inversion F as [|? ? [I FE] FT]; subst. cbn [fst snd] in *. destruct (take_action rf o args st) as [s1| |] eqn:T; [|discriminate|discriminate]. cbn [andthen] in H.
    destruct (take_action_storable o args st s1 FE T) as [v [SV ->]]. destruct (IH _ FT H) as [ovs [A ->]]. exists ((o, v) :: ovs). split; [constructor; auto|reflexivity].
  Qed.
  (** An invariant of the consumption. *)
  Lemma span_incl {A} (f : A -> bool) l : incl (snd (span f l)) l.
  Proof. clear rf. induction l as [|x t IH]; cbn; [intros y Y; exact Y|]. destruct (f x); [|intros y Y; exact Y]. destruct (span f t) as [a b]. cbn in *. intros y Y. right. apply IH, Y. Qed.
  Lemma skipn_incl {A} n (l : list A) : incl (skipn n l) l.
  Proof. clear rf. intros x X. rewrite <- (firstn_skipn n l). apply in_or_app. right. exact X. Qed.
  Lemma consume_invariant os pos (Q : state -> Prop) :
    (forall st o v, In o os -> storable o v -> Q st -> Q (put st (o, v))) -> (forall st l, Q st -> Q (add_extras l st)) ->
    (forall st r st' r', Q st -> Forall (known os) r -> pos st r = Done (st', r') -> Q st' /\ incl r' r) ->
    forall fuel st rest st', Q st -> Forall (known os) rest -> consume rf os pos fuel st rest = Done st' -> Q st'.
  Proof.
    intros QP QE QQ. induction fuel as [|fuel IH]; intros st rest st' HQ K H; [injection H as <-; exact HQ|]. cbn [consume] in H.
    assert (KI : forall r, incl r rest -> Forall (known os) r) by (intros r I; rewrite Forall_forall in *; auto).
    assert (POS : forall r, andthen (pos st rest) (fun r0 => if length (snd r0) <? length rest then consume rf os pos fuel (fst r0) (snd r0)
                  else let '(a, b) := span (fun x => negb (is_option x)) rest in consume rf os pos fuel (add_extras a (fst r0)) b) = Done r -> Q r).
    { intros r G. destruct (pos st rest) as [[s1 r1]| |] eqn:P; [|discriminate|discriminate]. cbn [andthen fst snd] in G. destruct (QQ _ _ _ _ HQ K P) as [Q1 I1].
      destruct (length r1 <? length rest); [exact (IH _ _ _ Q1 (KI _ I1) G)|].
      pose proof (span_incl (fun x => negb (is_option x)) rest) as SI. destruct (span (fun x => negb (is_option x)) rest) as [a b]. exact (IH _ _ _ (QE _ _ Q1) (KI _ SI) G). }
    destruct (existsb is_option rest).
    - destruct rest as [|[[| |o flag e] s] t]; [apply POS, H|apply POS, H|apply POS, H|]. destruct o as [o|].
      + inversion K as [|? ? KO KT]; subst. cbn in KO. destruct (option_actions os o flag e t) as [[l n]| |] eqn:OA; [|discriminate|discriminate]. cbn [andthen fst snd] in H.
        destruct (take_actions rf l st) as [s1| |] eqn:TA; [|discriminate|discriminate]. cbn [andthen] in H.
        destruct (take_actions_puts os l st s1 (option_actions_known os o flag e t l n KO OA) TA) as [ovs [FO ->]].
        assert (Q1 : Q (fold_left put ovs st)). { clear - FO HQ QP. revert st HQ. induction FO as [|[o v] u [I SV] _ IHu]; intros st HQ; cbn [fold_left]; [exact HQ|]. apply IHu, QP; assumption. }
        refine (IH _ _ _ Q1 _ H). rewrite Forall_forall in KT |- *. intros x X. apply KT. exact (skipn_incl n t x X).
      + inversion K as [|? ? _ KT]; subst. exact (IH _ _ _ (QE _ _ HQ) KT H).
    - destruct (pos st rest) as [[s1 r1]| |] eqn:P; [|discriminate|discriminate]. cbn [andthen fst snd] in H. injection H as <-. apply QE. exact (proj1 (QQ _ _ _ _ HQ K P)).
  Qed.
  Lemma parse_known_invariant p ps pos (Q : state -> Prop) args st' : Q {| attrs := initial p; seen := []; left := ps; extras := [] |} ->
    (forall st o v, In o (options p) -> storable o v -> Q st -> Q (put st (o, v))) -> (forall st l, Q st -> Q (add_extras l st)) ->
    (forall st r st' r', Q st -> Forall (known (options p)) r -> pos st r = Done (st', r') -> Q st' /\ incl r' r) ->
    parse_known rf p ps pos args = Done st' -> Q st' /\ (forall o, In o (options p) -> required o = true -> is_seen st' o = true) /\ (forall n ns, left st' <> Choice n ns).
  Proof.
    intros Q0 QP QE QQ H. unfold parse_known in H. destruct (classify (options p) args) as [toks| |] eqn:C; [|discriminate|discriminate]. cbn [andthen] in H.
    destruct (consume rf (options p) pos (S (length toks)) _ toks) as [s1| |] eqn:X; [|discriminate|discriminate]. cbn [andthen] in H.
    destruct (existsb (fun o => required o && negb (is_seen s1 o)) (options p)) eqn:E; [discriminate|]. cbn [orb] in H.
    split; [|split].
    - assert (s1 = st') as <- by (destruct (left s1); congruence). exact (consume_invariant (options p) pos Q QP QE QQ _ _ _ _ Q0 (proj1 (classify_known _ _ _ C)) X).
    - assert (s1 = st') as <- by (destruct (left s1); congruence). intros o I R. destruct (is_seen s1 o) eqn:S; [reflexivity|].
      assert (T : existsb (fun o => required o && negb (is_seen s1 o)) (options p) = true) by (apply existsb_exists; exists o; split; [exact I|rewrite R, S; reflexivity]). congruence.
    - intros n ns L. destruct (left s1) eqn:LE; try discriminate; injection H as <-; congruence.
  Qed.
  (** Parsers with subcommands, whose attributes are not those of the parser. *)
  Definition defines (p : parser) (d : string) : Prop := default_value p d <> None.
  Lemma option_defines p o v : In o (options p) -> storable o v -> defines p (dest o).
  Proof. clear rf.
    intros I S. unfold defines, default_value. destruct (find _ (options p)) as [x|] eqn:E; [discriminate|]. exfalso. apply find_none with (x := o) in E; [|exact I].
    rewrite eqb_refl_string in E. cbn in E. unfold storable in S. destruct (act o); [discriminate|discriminate|exact S].
  Qed.
  Lemma possible_defines p d v : possible p d v -> defines p d.
  Proof. clear rf. intros [H|[o [I [<- S]]]]; [unfold defines; congruence|exact (option_defines p o v I S)]. Qed.
  (** What holds of the attributes of one parser while they are collected. *)
  Definition partly (p : parser) (ns : namespace) (sn : list (list string)) : Prop :=
    (forall d, defines p d -> exists v, getattr ns d = Some v /\ possible p d v) /\
    (forall o, In o (options p) -> In (flags o) sn -> exists o' v, In o' (options p) /\ dest o' = dest o /\ storable o' v /\ getattr ns (dest o) = Some v).
  Lemma partly_initial p : partly p (initial p) [].
  Proof. clear rf.
    split; [|intros o _ []]. intros d H. rewrite getattr_initial. unfold defines in H. destruct (default_value p d) as [v|] eqn:E; [|congruence]. exists v. split; [reflexivity|]. left. exact E.
  Qed.
  Lemma partly_put p st o v : flags_ok (options p) -> In o (options p) -> storable o v -> partly p (attrs st) (seen st) -> partly p (attrs (put st (o, v))) (seen (put st (o, v))).
  Proof. clear rf.
    intros OK I SV [A C]. split; cbn [put attrs seen fst snd].
    - intros d D. rewrite getattr_setattr. destruct (String.eqb_spec (dest o) d) as [E|_]; [|auto]. exists v. split; [reflexivity|]. right. exists o. auto.
    - intros x IX [E|S].
      + assert (x = o) as ->. { destruct OK as [ND [_ NE]]. rewrite Forall_forall in NE. destruct (flags o) as [|g u] eqn:FG; [destruct (NE o I FG)|].
          apply (nodup_flat x o g (options p) ND IX I); [rewrite <- E|rewrite FG]; left; reflexivity. }
        exists o, v. rewrite getattr_setattr, eqb_refl_string. auto.
      + destruct (C x IX S) as [o' [w [I' [D' [S' G]]]]]. rewrite getattr_setattr. destruct (String.eqb_spec (dest o) (dest x)) as [E|_].
        * exists o, v. auto.
        * exists o', w. auto.
  Qed.
  Lemma is_seen_in st o : is_seen st o = true -> In (flags o) (seen st).
  Proof. clear rf. unfold is_seen. rewrite existsb_exists. intros [f [I H]]. destruct (list_eq_dec string_dec f (flags o)) as [->|]; [exact I|discriminate]. Qed.
  Lemma sub_sound q args sub : flags_ok (options q) -> parse_known rf q NoPositional no_positionals args = Done sub ->
    NoDup (map fst (attrs sub)) /\ obeys q (attrs sub) /\ forall d, getattr (attrs sub) d <> None -> defines q d.
  Proof.
    intros OK H.
    pose proof (parse_known_invariant q NoPositional no_positionals
      (fun st => NoDup (map fst (attrs st)) /\ partly q (attrs st) (seen st) /\ forall d, getattr (attrs st) d <> None -> defines q d) args sub) as X.
    destruct X as [[A [[B C] D]] [E _]]; [split; [apply nodup_initial|split; [apply partly_initial|intros d; cbn [attrs]; rewrite getattr_initial; intro X; exact X]]| | | |exact H|].
    - intros st o v I SV [N [P Q]]. split; [cbn [put attrs]; apply nodup_setattr, N|]. split; [apply partly_put; assumption|]. intros d. cbn [put attrs fst snd]. rewrite getattr_setattr.
      destruct (String.eqb_spec (dest o) d) as [<-|_]; [intros _; exact (option_defines q o v I SV)|apply Q].
    - intros st l Q. exact Q.
    - intros st r st' r' Q _ Y. injection Y as <- <-. split; [exact Q|intros x X; exact X].
    - split; [exact A|]. split; [|exact D]. split; [exact B|]. intros o I R. apply C; [exact I|]. apply is_seen_in, E; assumption.
  Qed.
  Lemma commands_sound p table args ns : flags_ok (options p) ->
    (forall name q, find_parser table name = Some q -> flags_ok (options q) /\ forall d, defines p d -> defines q d -> False) ->
    parse_args rf p (Command table) args = Done ns ->
    obeys p ns /\
    ((forall d, getattr ns d <> None -> defines p d) \/
     exists name q, find_parser table name = Some q /\ obeys q ns /\ forall d, getattr ns d <> None -> defines p d \/ defines q d).
  Proof.
    intros OK OT H. unfold parse_args in H. cbv zeta iota in H. destruct (parse_known rf p (Command table) (positionals rf) args) as [st| |] eqn:K; [|discriminate|discriminate].
    cbn [andthen] in H. destruct (extras st); [|discriminate]. injection H as <-.
    set (Q := fun s : state => partly p (attrs s) (seen s) /\
       ((left s = Command table /\ forall d, getattr (attrs s) d <> None -> defines p d) \/
        (left s = NoPositional /\ exists name q, find_parser table name = Some q /\ obeys q (attrs s) /\ forall d, getattr (attrs s) d <> None -> defines p d \/ defines q d))).
    destruct (parse_known_invariant p (Command table) (positionals rf) Q args st) as [[[A B] C] [D _]]; [| | | |exact K|].
    - split; [apply partly_initial|]. left. split; [reflexivity|]. intro d. cbn [attrs]. rewrite getattr_initial. intro X; exact X.
    - intros s o v I SV [P Z]. split; [apply partly_put; assumption|]. pose proof (option_defines p o v I SV) as DO. cbn [put attrs left fst snd]. destruct Z as [[L Z]|[L [name [q [F [[O1 O2] Z]]]]]].
      + left. split; [exact L|]. intro d. rewrite getattr_setattr. destruct (String.eqb_spec (dest o) d) as [<-|_]; [intros _; exact DO|apply Z].
      + right. split; [exact L|]. exists name, q. split; [exact F|]. destruct (OT name q F) as [OQ DJ]. split; [split|].
        * intros d DQ. rewrite getattr_setattr. destruct (String.eqb_spec (dest o) d) as [<-|_]; [destruct (DJ _ DO DQ)|auto].
        * intros x IX RX. destruct (O2 x IX RX) as [o' [w [I' [D' [S' G]]]]]. exists o', w. rewrite getattr_setattr.
          destruct (String.eqb_spec (dest o) (dest x)) as [E|_]; [|auto]. destruct (DJ (dest o)); [exact DO|]. rewrite E, <- D'. exact (option_defines q o' w I' S').
        * intro d. rewrite getattr_setattr. destruct (String.eqb_spec (dest o) d) as [<-|_]; [intros _; left; exact DO|apply Z].
    - intros s l Z. exact Z.
    - intros s r s' r' [P Z] KN E. unfold positionals in E. destruct Z as [[L Z]|[L Z]]; rewrite L in E.
      + assert (SAME : Done (s, r) = Done (s', r') -> Q s' /\ incl r' r) by (intro Y; injection Y as <- <-; split; [split; [exact P|left; auto]|intros x X; exact X]).
        destruct (snd (span is_separator r)) as [|[[| |] x] u]; [apply SAME, E| |apply SAME, E|apply SAME, E].
        destruct (map snd r) as [|name ws]; [apply SAME, E|]. destruct (find_parser table name) as [q|] eqn:F; [|discriminate]. destruct (OT name q F) as [OQ DJ].
        destruct (parse_known rf q NoPositional no_positionals ws) as [sub| |] eqn:KS; [|discriminate|discriminate]. cbn [andthen] in E. injection E as <- <-.
        destruct (sub_sound q ws sub OQ KS) as [ND [[O1 O2] O3]]. split; [|intros x' []].
        assert (MAIN : forall d, defines p d -> getattr (attrs sub) d = None).
        { intros d DP. destruct (getattr (attrs sub) d) eqn:G; [|reflexivity]. destruct (DJ d DP). apply O3. congruence. }
        destruct P as [P1 P2]. split; [split|]; cbn [attrs seen left].
        * intros d DP. rewrite (copy_attrs _ _ d ND), (MAIN d DP). cbn [either]. auto.
        * intros o I S. destruct (P2 o I S) as [o' [w [I' [D' [S' G]]]]]. exists o', w. rewrite (copy_attrs _ _ _ ND), MAIN; [auto|]. rewrite <- D'. exact (option_defines p o' w I' S').
        * right. split; [reflexivity|]. exists name, q. split; [exact F|]. split; [split|].
          -- intros d DQ. destruct (O1 d DQ) as [v [G V]]. exists v. rewrite (copy_attrs _ _ _ ND), G. auto.
          -- intros o I R. destruct (O2 o I R) as [o' [w [I' [D' [S' G]]]]]. exists o', w. rewrite (copy_attrs _ _ _ ND), G. auto.
          -- intros d. rewrite (copy_attrs _ _ _ ND). destruct (getattr (attrs sub) d) eqn:G; cbn [either]; [intros _; right; apply O3; congruence|intro X; left; apply Z, X].
      + injection E as <- <-. split; [split; [exact P|right; auto]|intros x X; exact X].
    - split; [split; [exact A|]|].
      + intros o I R. apply B; [exact I|]. apply is_seen_in, D; assumption.
      + destruct C as [[_ C]|[_ C]]; [left; exact C|right; exact C].
  Qed.
  Lemma single_sound p args ns : flags_ok (options p) -> parse_args rf p NoPositional args = Done ns -> obeys p ns /\ forall d, getattr ns d <> None -> defines p d.
  Proof.
    intros OK H. unfold parse_args in H. cbv zeta iota in H. destruct (parse_known rf p NoPositional (positionals rf) args) as [st| |] eqn:K; [|discriminate|discriminate].
    cbn [andthen] in H. destruct (extras st); [|discriminate]. injection H as <-.
    destruct (parse_known_invariant p NoPositional (positionals rf)
      (fun st => left st = NoPositional /\ partly p (attrs st) (seen st) /\ forall d, getattr (attrs st) d <> None -> defines p d) args st) as [[_ [[B C] D]] [E _]];
      [split; [reflexivity|split; [apply partly_initial|intros d; cbn [attrs]; rewrite getattr_initial; intro X; exact X]]| | | |exact K|].
    - intros s o v I SV [L [P Q]]. split; [exact L|]. split; [apply partly_put; assumption|]. intros d. cbn [put attrs fst snd]. rewrite getattr_setattr.
      destruct (String.eqb_spec (dest o) d) as [<-|_]; [intros _; exact (option_defines p o v I SV)|apply Q].
    - intros s l Q. exact Q.
    - intros s r s' r' Q _ Y. unfold positionals in Y. rewrite (proj1 Q) in Y. injection Y as <- <-. split; [exact Q|intros x X; exact X].
    - split; [|exact D]. split; [exact B|]. intros o I R. apply C; [exact I|]. apply is_seen_in, E; assumption.
  Qed.

  (** *** Command lines that are refused *)
  Lemma classify_command os name rest : flags_ok os -> (forall t, name <> String "-" t) -> classify os (name :: rest) = andthen (classify os rest) (fun r => Done ((Arg, name) :: r)).
  Proof. clear rf.
    intros OK NN. cbn [classify]. assert (P : plain name) by (left; exact NN). destruct (String.eqb_spec name "--") as [E|_]; [destruct (plain_not_separator name P E)|].
    rewrite (parse_plain os OK name P). reflexivity.
  Qed.
  Lemma command_reached p table name rest ss l : flags_ok (options p) -> (forall t, name <> String "-" t) -> Forall2 (denotes rf (options p)) ss l ->
    Forall (fun ov => fixed_arity (fst ov)) l ->
    parse_known rf p (Command table) (positionals rf) (flat_map text ss ++ name :: rest) =
    andthen (classify (options p) rest) (fun _ =>
      match find_parser table name with
      | None => Exit 2
      | Some q => andthen (parse_known rf q NoPositional no_positionals rest) (fun sub =>
          let st := fold_left put l {| attrs := initial p; seen := []; left := Command table; extras := [] |} in
          let st' := {| attrs := fold_left (fun ns d => setattr (fst d) (snd d) ns) (attrs sub) (attrs st); seen := seen st; left := NoPositional; extras := extras sub |} in
          if existsb (fun o => required o && negb (is_seen st' o)) (options p) then Exit 2 else Done st')
      end).
  Proof.
    intros OK NN F FA. destruct (settings_steps rf (options p) OK (positionals rf) ss l F) as [toks [RA [LE [_ ST]]]]. unfold parse_known at 1.
    rewrite (classify_app (options p) toks _ _ RA), (classify_command (options p) name rest OK NN). destruct (classify (options p) rest) as [T| |] eqn:C; [|reflexivity|reflexivity].
    cbn [andthen]. set (s0 := {| attrs := initial p; seen := []; left := Command table; extras := [] |}).
    replace (S (length (toks ++ (Arg, name) :: T))) with (length ss + S (S (length toks + length T - length ss))) by (rewrite app_length; cbn [length]; lia).
    rewrite ST by (left; exact FA). destruct (fold_put l s0) as [A [B _]]. rewrite (consume_command rf p table name T l); [|rewrite A; reflexivity|reflexivity].
    destruct (find_parser table name) as [q|]; [|reflexivity]. rewrite (proj2 (classify_known _ _ _ C)). destruct (parse_known rf q NoPositional no_positionals rest) as [sub| |]; [|reflexivity|reflexivity].
    cbn [andthen]. rewrite B. cbn [extras s0 app left]. rewrite orb_false_r. reflexivity.
  Qed.
  Lemma incomplete_refused p table name rest ss l ns : flags_ok (options p) -> (forall t, name <> String "-" t) -> Forall2 (denotes rf (options p)) ss l ->
    Forall (fun ov => fixed_arity (fst ov)) l -> ~ complete p l -> parse_args rf p (Command table) (flat_map text ss ++ name :: rest) <> Done ns.
  Proof.
    intros OK NN F FA NC H. unfold parse_args in H. cbv zeta iota in H. rewrite (command_reached p table name rest ss l OK NN F FA) in H.
    destruct (classify (options p) rest); [|discriminate|discriminate]. cbn [andthen] in H. destruct (find_parser table name) as [q|]; [|discriminate].
    destruct (parse_known rf q NoPositional no_positionals rest) as [sub| |]; [|discriminate|discriminate]. cbn [andthen] in H. cbv zeta in H.
    destruct (fold_put l {| attrs := initial p; seen := []; left := Command table; extras := [] |}) as [_ [_ [C _]]]. cbn [seen] in C. rewrite app_nil_r in C.
    set (st' := {| attrs := _; seen := _; left := _; extras := _ |}) in H.
    destruct (complete_dec p l (denotes_in rf (options p) ss l F) st' OK C) as [[X _]|[_ X]]; [tauto|]. rewrite X in H. discriminate.
  Qed.
  Lemma consume_extras os : forall fuel st rest st', Forall (known os) rest -> consume rf os no_positionals fuel st rest = Done st' -> extras st <> [] -> extras st' <> [].
  Proof.
    intros fuel st rest st' K H N. refine (consume_invariant os no_positionals (fun s => extras s <> []) _ _ _ fuel st rest st' N K H).
    - intros s o v _ _ X. exact X.
    - intros s l X. cbn [add_extras extras]. destruct (extras s); [congruence|discriminate].
    - intros s r s' r' X _ E. injection E as <- <-. split; [exact X|intros y Y; exact Y].
  Qed.
  Lemma unknown_option os x : flags_ok os -> (exists c t, x = String "-" (String "-" (String c t))) -> ~ In "="%char (chars x) -> ~ In " "%char (chars x) ->
    (forall g, In g (flat_map flags os) -> forall r, g <> (x ++ r)%string) -> parse_optional os x = Done (Option_ None x None).
  Proof. clear rf.
    intros OK [c [t X]] NE NSP NF. unfold parse_optional. assert (first_is dash x = true) as -> by (rewrite X; reflexivity). cbn [negb].
    rewrite (find_flag_none os x). 2:{ intro I. apply (NF x I EmptyString). clear. induction x; cbn; [reflexivity|]. f_equal. exact IHx. }
    assert (String.length x =? 1 = false) as -> by (rewrite X; reflexivity). rewrite (split_eq_none x NE).
    assert (option_tuples os x = []) as ->.
    { assert (E : map (fun t => snd (fst t)) (option_tuples os x) = []).
      { rewrite tuples_flags by (rewrite X; reflexivity). rewrite (split_eq_none x NE). destruct (filter (String.prefix x) (flat_map flags os)) as [|g u] eqn:FE; [reflexivity|]. exfalso.
        assert (I : In g (filter (String.prefix x) (flat_map flags os))) by (rewrite FE; left; reflexivity). apply filter_In in I. destruct I as [I P]. apply prefix_app in P. destruct P as [r P]. exact (NF g I r P). }
      destruct (option_tuples os x); [reflexivity|discriminate]. }
    assert (negative_number x = false) as -> by (rewrite X; reflexivity).
    assert (has_space x = false) as ->; [|reflexivity]. clear - NSP. unfold chars in NSP. induction x as [|c t IH]; [reflexivity|]. cbn in *. destruct (Ascii.eqb_spec c " "%char) as [->|_]; [tauto|]. cbn. apply IH. tauto.
  Qed.
  Lemma unknown_refused p table name q ss l ss' l' x rest ns : flags_ok (options p) -> flags_ok (options q) -> find_parser table name = Some q -> (forall t, name <> String "-" t) ->
    Forall2 (denotes rf (options p)) ss l -> Forall (fun ov => fixed_arity (fst ov)) l -> Forall2 (denotes rf (options q)) ss' l' ->
    (exists c t, x = String "-" (String "-" (String c t))) -> ~ In "="%char (chars x) -> ~ In " "%char (chars x) ->
    (forall g, In g (flat_map flags (options q)) -> forall r, g <> (x ++ r)%string) ->
    parse_args rf p (Command table) (flat_map text ss ++ name :: flat_map text ss' ++ x :: rest) <> Done ns.
  Proof.
    intros OP OQ FQ NN F FA F' LX NE NSP NF H. unfold parse_args in H. cbv zeta iota in H. rewrite (command_reached p table name _ ss l OP NN F FA) in H.
    destruct (classify (options p) (flat_map text ss' ++ x :: rest)); [|discriminate|discriminate]. cbn [andthen] in H. rewrite FQ in H.
    destruct (parse_known rf q NoPositional no_positionals (flat_map text ss' ++ x :: rest)) as [sub| |] eqn:K; [|discriminate|discriminate]. cbn [andthen] in H. cbv zeta in H.
    set (st' := {| attrs := _; seen := _; left := _; extras := _ |}) in H. destruct (existsb _ (options p)); [discriminate|]. cbn [andthen extras st'] in H.
    cut (extras sub <> []); [intro X; destruct (extras sub); [congruence|discriminate]|]. clear H st'. unfold parse_known in K.
    destruct (settings_steps rf (options q) OQ no_positionals ss' l' F') as [toks [RA [LE [_ ST]]]]. rewrite (classify_app (options q) toks _ _ RA) in K.
    assert (x <> "--"%string) by (destruct LX as [c [t ->]]; discriminate). cbn [classify] in K. destruct (String.eqb_spec x "--") as [E|_]; [congruence|].
    rewrite (unknown_option (options q) x OQ LX NE NSP NF) in K. cbn [andthen] in K. destruct (classify (options q) rest) as [T| |] eqn:C; [|discriminate|discriminate]. cbn [andthen] in K.
    set (s0 := {| attrs := initial q; seen := []; left := NoPositional; extras := [] |}) in K.
    replace (S (length (toks ++ (Option_ None x None, x) :: T))) with (length ss' + S (S (length toks + length T - length ss'))) in K by (rewrite app_length; cbn [length]; lia).
    rewrite ST in K by (right; exact Logic.I). set (fuel := S (length toks + length T - length ss')) in K. cbn [consume existsb is_option fst orb] in K.
    destruct (consume rf (options q) no_positionals fuel (add_extras [(Option_ None x None, x)] (fold_left put l' s0)) T) as [s1| |] eqn:X; [|discriminate|discriminate]. cbn [andthen] in K.
    assert (N1 : extras s1 <> []).
    { apply (consume_extras (options q) fuel _ T s1 (proj1 (classify_known _ _ _ C)) X). cbn [add_extras extras map snd]. destruct (extras (fold_left put l' s0)); discriminate. }
    destruct (existsb (fun o => required o && negb (is_seen s1 o)) (options q)); [discriminate|]. cbn [orb] in K. destruct (left s1); try discriminate; injection K as <-; exact N1.
  Qed.
End Any.

(** ** Checking the concrete parsers *)
Definition flag_okb (f : string) : bool :=
  negb (existsb (Ascii.eqb "="%char) (chars f)) &&
  match f with
  | String a (String c t) => Ascii.eqb a "-"%char && negb (is_digit c) && negb (Ascii.eqb c "."%char) && (negb (Ascii.eqb c "-"%char) || negb (String.eqb t EmptyString))
  | _ => false
  end.
Fixpoint distinctb (l : list string) : bool := match l with [] => true | x :: t => negb (existsb (String.eqb x) t) && distinctb t end.
Definition flags_okb (os : list opt) : bool :=
  distinctb (flat_map flags os) && forallb flag_okb (flat_map flags os) && forallb (fun o => match flags o with [] => false | _ => true end) os.
Lemma not_existsb {A} (f : A -> bool) l x : existsb f l = false -> In x l -> f x = false.
Proof. intros H I. destruct (f x) eqn:E; [|reflexivity]. assert (T : existsb f l = true) by (apply existsb_exists; eauto). congruence. Qed.
Lemma flags_okb_ok os : flags_okb os = true -> flags_ok os.
Proof.
  unfold flags_okb. intro H. apply andb_true_iff in H. destruct H as [H C]. apply andb_true_iff in H. destruct H as [A B]. split; [|split].
  - induction (flat_map flags os) as [|x t IH]; [constructor|]. cbn in A. apply andb_true_iff in A. destruct A as [A1 A2]. cbn in B. apply andb_true_iff in B.
    constructor; [|apply IH; tauto]. apply negb_true_iff in A1. intro I. pose proof (not_existsb _ _ _ A1 I) as X. rewrite eqb_refl_string in X. discriminate.
  - rewrite Forall_forall. rewrite forallb_forall in B. intros f F. specialize (B f F). unfold flag_okb in B. apply andb_true_iff in B. destruct B as [B1 B2]. apply negb_true_iff in B1. split.
    + intro I. pose proof (not_existsb _ _ _ B1 I) as X. rewrite Ascii.eqb_refl in X. discriminate.
    + destruct f as [|a [|c t]]; try discriminate. apply andb_true_iff in B2. destruct B2 as [B2 B5]. apply andb_true_iff in B2. destruct B2 as [B2 B4]. apply andb_true_iff in B2. destruct B2 as [B2 B3].
      apply Ascii.eqb_eq in B2. subst a. exists c, t. split; [reflexivity|]. split; [intro D; apply is_digit_ok in D; rewrite D in B3; discriminate|].
      split; [intros ->; discriminate|]. intros -> ->. discriminate.
  - rewrite Forall_forall. rewrite forallb_forall in C. intros o I E. specialize (C o I). rewrite E in C. discriminate.
Qed.
Definition letterb (f g : string) : bool :=
  match f, g with
  | String a (String b (String c _)), String a' (String b' (String c' _)) =>
      negb (Ascii.eqb a "-"%char && Ascii.eqb b "-"%char && Ascii.eqb a' "-"%char && Ascii.eqb b' "-"%char && Ascii.eqb c c') || String.eqb f g
  | _, _ => true
  end.
Lemma different_lettersb os : forallb (fun f => forallb (letterb f) (flat_map flags os)) (flat_map flags os) = true -> different_letters os.
Proof.
  intros H f g c t u F G E1 E2. rewrite forallb_forall in H. specialize (H f F). rewrite forallb_forall in H. specialize (H g G). rewrite E1, E2 in *. cbn in H.
  destruct (Ascii.eqb c c) eqn:X; [|rewrite Ascii.eqb_refl in X; discriminate]. cbn in H. rewrite eqb_refl_string || idtac.
  destruct (String.eqb_spec t u) as [->|N]; [reflexivity|]. discriminate.
Qed.
Definition domain (p : parser) : list string := map dest (filter (fun o => match act o with Help => false | _ => true end) (options p)) ++ map fst (constants p).
Lemma defines_domain p d : defines p d -> In d (domain p).
Proof.
  unfold defines, default_value, domain. intro H. destruct (find _ (options p)) as [o|] eqn:E.
  - apply find_some in E. destruct E as [I E]. apply andb_true_iff in E. destruct E as [E1 E2]. apply String.eqb_eq in E1. subst d. apply in_or_app. left. apply in_map_iff. exists o. split; [reflexivity|]. apply filter_In. auto.
  - destruct (find (fun c => String.eqb (fst c) d) (constants p)) as [c|] eqn:F; [|congruence]. apply find_some in F. destruct F as [I F]. apply String.eqb_eq in F. subst d. apply in_or_app. right. apply in_map. exact I.
Qed.
Lemma disjoint_domains p q : forallb (fun d => negb (existsb (String.eqb d) (domain q))) (domain p) = true -> forall d, defines p d -> defines q d -> False.
Proof.
  intros H d P Q. apply defines_domain in P. apply defines_domain in Q. rewrite forallb_forall in H. specialize (H d P). apply negb_true_iff in H.
  pose proof (not_existsb _ _ _ H Q) as X. rewrite eqb_refl_string in X. discriminate.
Qed.
Definition longb (f : string) : bool := match f with String a (String b (String _ _)) => Ascii.eqb a "-"%char && Ascii.eqb b "-"%char | _ => false end.
Lemma long_options q : forallb (fun o => match act o with Help => true | _ => forallb longb (flags o) end) (options q) = true ->
  forall o, In o (options q) -> act o <> Help -> Forall long (flags o).
Proof.
  intros H o I N. rewrite forallb_forall in H. specialize (H o I). apply Forall_forall. intros f F.
  assert (X : forallb longb (flags o) = true) by (destruct (act o); [exact H|exact H|congruence]). rewrite forallb_forall in X. specialize (X f F).
  destruct f as [|a [|b [|c t]]]; try discriminate. cbn in X. apply andb_true_iff in X. destruct X as [X Y]. apply Ascii.eqb_eq in X. apply Ascii.eqb_eq in Y. subst. exists c, t. reflexivity.
Qed.

(** ** A positional argument with choices, given first *)
Lemma choice_settings rf p nm vals v ss l : flags_ok (options p) -> In v vals -> (forall t, v <> String "-" t) -> Forall2 (denotes rf (options p)) ss l -> complete p l ->
  (forall o, In o (options p) -> dest o <> nm) ->
  exists ns, parse_args rf p (Choice nm vals) (v :: flat_map text ss) = Done ns /\
    forall d, getattr ns d = if String.eqb nm d then Some (VStr v) else expected p l d.
Proof.
  intros OK IV NV F C ND. unfold parse_args. cbv zeta. set (p' := {| options := options p; constants := (nm, VNone) :: constants p |}).
  destruct (settings_steps rf (options p) OK (positionals rf) ss l F) as [toks [RA [LE [HD ST]]]]. unfold parse_known. cbn [options p'].
  assert (CL : classify (options p) (v :: flat_map text ss) = Done ((Arg, v) :: toks)).
  { rewrite (classify_command (options p) v _ OK NV). pose proof (classify_app (options p) toks (flat_map text ss) [] RA) as CL. rewrite app_nil_r in CL. rewrite CL. cbn [classify andthen]. rewrite app_nil_r. reflexivity. }
  rewrite CL. cbn [andthen length]. set (s0 := {| attrs := initial p'; seen := []; left := Choice nm vals; extras := [] |}).
  set (s1 := {| attrs := setattr nm (VStr v) (initial p'); seen := []; left := NoPositional; extras := [] |}).
  assert (NS : v <> "--"%string) by (apply plain_not_separator; left; exact NV).
  assert (NSEP : fst (span is_separator toks) = [] /\ snd (span is_separator toks) = toks).
  { destruct toks as [|t u]; [split; reflexivity|]. destruct ss as [|s ss]; [inversion RA|]. destruct HD as [t' [u' [E IO]]]; [discriminate|]. injection E as -> ->. destruct t' as [[| |] x]; try discriminate. split; reflexivity. }
  assert (PO : positionals rf s0 ((Arg, v) :: toks) = Done (s1, toks)).
  { unfold positionals. cbn [left s0 span is_separator fst]. destruct (span is_separator toks) as [a b]. cbn [fst snd] in NSEP. destruct NSEP as [-> ->].
    cbn [map app remove_separator]. destruct (String.eqb_spec v "--") as [E|_]; [congruence|]. assert (existsb (String.eqb v) vals = true) as -> by (apply existsb_exists; exists v; split; [exact IV|apply eqb_refl_string]). reflexivity. }
  assert (E : consume rf (options p) (positionals rf) (S (S (length toks))) s0 ((Arg, v) :: toks) = Done (fold_left put l s1)).
  { destruct (existsb is_option ((Arg, v) :: toks)) eqn:EX.
    - remember (S (length toks)) as n eqn:En. cbn [consume]. rewrite EX. rewrite PO. cbn [andthen fst snd length]. assert (length toks <? S (length toks) = true) as -> by (apply Nat.ltb_lt; lia).
      replace n with (length ss + S (length toks - length ss)) by lia. rewrite <- (app_nil_r toks) at 2. rewrite ST by (right; exact Logic.I).
      destruct (fold_put l s1) as [A [B _]]. cbn [consume existsb]. unfold positionals. rewrite A. cbn [left s1 andthen fst snd]. unfold add_extras. cbn [map]. rewrite app_nil_r. destruct (fold_left put l s1); reflexivity.
    - assert (toks = [] /\ ss = []) as [-> ->].
      { destruct ss as [|s ss]; [inversion RA; auto|]. destruct HD as [t' [u' [-> IO]]]; [discriminate|]. cbn in EX. rewrite IO in EX. discriminate. }
      inversion F; subst. remember (S (length (@nil (token * string)))) as n. cbn [consume]. rewrite EX, PO. reflexivity. }
  rewrite E. cbn [andthen]. destruct (fold_put l s1) as [A [B [S D]]]. cbn [s1 seen] in S. rewrite app_nil_r in S. rewrite A. cbn [left s1 orb]. rewrite orb_false_r.
  destruct (complete_dec p l (denotes_in rf (options p) ss l F) (fold_left put l s1) OK S) as [[_ ->]|[X _]]; [|tauto]. cbn [andthen]. rewrite B. cbn [extras s1].
  exists (attrs (fold_left put l s1)). split; [reflexivity|]. intro d. rewrite D. cbn [attrs s1]. rewrite getattr_setattr, getattr_initial. unfold expected.
  assert (DV : nm <> d -> default_value p' d = default_value p d).
  { intro N. unfold default_value. cbn [options constants p']. destruct (find _ (options p)); [reflexivity|]. cbn [find fst snd]. destruct (String.eqb_spec nm d); [congruence|reflexivity]. }
  destruct (String.eqb_spec nm d) as [<-|N]; [|rewrite (DV N); reflexivity].
  assert (assigned l nm = None) as ->; [|reflexivity]. clear - F ND. pose proof (denotes_in rf (options p) ss l F) as SUB. clear F. induction l as [|[o w] t IH]; [reflexivity|]. cbn [assigned].
  rewrite IH by (intros x X; apply SUB; right; exact X). destruct (String.eqb_spec (dest o) nm) as [X|_]; [|reflexivity]. destruct (ND o (SUB o (or_introl eq_refl)) X).
Qed.

(** ** Integers *)
Lemma digits_value_ok ds acc b : Forall (fun n => n < 10) ds -> (ds <> [] \/ b = true) ->
  digits_value acc b (string_of_list_ascii (map (fun n => ascii_of_nat (48 + n)) ds)) = Some (fold_left (fun a n => 10 * a + Z.of_nat n)%Z ds acc).
Proof.
  revert acc b. induction ds as [|n t IH]; intros acc b F H.
  - destruct H as [H| ->]; [congruence|]. reflexivity.
  - inversion F as [|? ? L FT]; subst. cbn [map string_of_list_ascii digits_value fold_left]. assert (is_digit (ascii_of_nat (48 + n)) = true) as -> by (apply is_digit_ok; exists n; auto).
    rewrite nat_ascii_embedding by lia. replace (48 + n - 48) with n by lia. apply IH; auto.
Qed.
Lemma digit_not_blank n : n < 10 -> is_blank (ascii_of_nat (48 + n)) = false.
Proof. intro L. unfold is_blank. rewrite nat_ascii_embedding by lia. cbv zeta. apply orb_false_iff. split; [apply Nat.eqb_neq; lia|]. apply andb_false_iff. right. apply Nat.leb_gt. lia. Qed.
Lemma strip_right_digits ds : Forall (fun n => n < 10) ds -> let s := string_of_list_ascii (map (fun n => ascii_of_nat (48 + n)) ds) in strip_right s = s.
Proof. cbv zeta. induction 1 as [|n t L F IH]; [reflexivity|]. cbn [map string_of_list_ascii strip_right]. rewrite IH, (digit_not_blank n L). reflexivity. Qed.
Lemma int_of_digits ds : Forall (fun n => n < 10) ds -> ds <> [] -> let s := string_of_list_ascii (map (fun n => ascii_of_nat (48 + n)) ds) in
  let z := fold_left (fun a n => 10 * a + Z.of_nat n)%Z ds 0%Z in
  int_of_string s = Some z /\ int_of_string (String "-" s) = Some (- z)%Z /\ int_of_string (String "+" s) = Some z.
Proof.
  intros F N s z. destruct ds as [|n t]; [congruence|]. pose proof (digits_value_ok (n :: t) 0 false F (or_introl N)) as D. fold s z in D.
  pose proof (strip_right_digits (n :: t) F) as SR. cbv zeta in SR. fold s in SR. inversion F as [|? ? L _]; subst.
  assert (SL : strip_left s = s) by (unfold s; cbn [map string_of_list_ascii strip_left]; rewrite (digit_not_blank n L); reflexivity).
  split; [|split].
  - unfold int_of_string. rewrite SL, SR. unfold s in *. cbn [map string_of_list_ascii] in *.
    assert (NE : forall c, ~ digit c -> Ascii.eqb (ascii_of_nat (48 + n)) c = false) by (intros c NC; destruct (Ascii.eqb_spec (ascii_of_nat (48 + n)) c) as [<-|]; [destruct NC; exists n; auto|reflexivity]).
    unfold dash. rewrite (NE "-"%char digit_dash), (NE "+"%char) by (intro X; apply is_digit_ok in X; discriminate). exact D.
  - unfold int_of_string. change (strip_left (String "-" s)) with (String "-" s). cbn [strip_right]. rewrite SR. change (is_blank "-") with false. cbn [andb]. change (Ascii.eqb "-" dash) with true. cbv iota. rewrite D. reflexivity.
  - unfold int_of_string. change (strip_left (String "+" s)) with (String "+" s). cbn [strip_right]. rewrite SR. change (is_blank "+") with false. cbn [andb]. change (Ascii.eqb "+" dash) with false. change (Ascii.eqb "+" "+"%char) with true. cbv iota. exact D.
Qed.

(** ** The configuration file *)
Lemma parse_args_nodup rf p ps args ns : parse_args rf p ps args = Done ns -> NoDup (map fst ns).
Proof.
  intro H. unfold parse_args in H. cbv zeta in H. set (p' := match ps with Choice _ _ => _ | _ => p end) in H.
  destruct (parse_known rf p' ps (positionals rf) args) as [st| |] eqn:K; [|discriminate|discriminate]. cbn [andthen] in H. destruct (extras st); [|discriminate]. injection H as <-.
  refine (proj1 (parse_known_invariant rf p' ps (positionals rf) (fun s => NoDup (map fst (attrs s))) args st _ _ _ _ K)).
  - apply nodup_initial.
  - intros s o v _ _ N. cbn [put attrs]. apply nodup_setattr, N.
  - intros s l N. exact N.
  - intros s r s' r' N _ E. unfold positionals in E. destruct (left s) as [|nm vals|table].
    + injection E as <- <-. split; [exact N|intros x X; exact X].
    + pose proof (span_incl is_separator r) as SI. destruct (span is_separator r) as [a b]. cbn [snd] in SI.
      destruct b as [|[[| |] x] t]; [injection E as <- <-; split; [exact N|intros y Y; exact Y]| |injection E as <- <-; split; [exact N|intros y Y; exact Y]|injection E as <- <-; split; [exact N|intros y Y; exact Y]].
      pose proof (span_incl is_separator t) as ST. destruct (span is_separator t) as [a' t']. cbn [snd] in ST. destruct (remove_separator (map snd a ++ x :: map snd a')) as [|w [|w' l]]; try discriminate.
      destruct (existsb (String.eqb w) vals); [|discriminate]. injection E as <- <-. split; [cbn [attrs]; apply nodup_setattr, N|]. intros y Y. apply SI. right. apply ST, Y.
    + destruct (snd (span is_separator r)) as [|[[| |] x] t]; [injection E as <- <-; split; [exact N|intros y Y; exact Y]| |injection E as <- <-; split; [exact N|intros y Y; exact Y]|injection E as <- <-; split; [exact N|intros y Y; exact Y]].
      destruct (map snd r) as [|nm ws]; [injection E as <- <-; split; [exact N|intros y Y; exact Y]|]. destruct (find_parser table nm) as [q|]; [|discriminate].
      destruct (parse_known rf q NoPositional no_positionals ws) as [sub| |]; [|discriminate|discriminate]. cbn [andthen] in E. injection E as <- <-. split; [|intros y []]. cbn [attrs].
      clear - N. revert N. generalize (attrs s). induction (attrs sub) as [|d t IH]; intros ns N; [exact N|]. cbn [fold_left]. apply IH, nodup_setattr, N.
Qed.
Lemma delattr_ok d ns : NoDup (map fst ns) -> NoDup (map fst (delattr d ns)) /\ (forall x, In x (map fst (delattr d ns)) -> In x (map fst ns)) /\
  forall x, getattr (delattr d ns) x = if String.eqb d x then None else getattr ns x.
Proof.
  induction ns as [|[y w] t IH]; cbn; intro N; [split; [constructor|split; [tauto|intro x; destruct (String.eqb d x); reflexivity]]|]. inversion N as [|? ? NI NT]; subst.
  destruct (String.eqb_spec y d) as [->|ND].
  - split; [exact NT|]. split; [auto|]. intro x. destruct (String.eqb_spec d x) as [<-|_]; [apply getattr_none, NI|reflexivity].
  - destruct (IH NT) as [A [B C]]. cbn. split; [constructor; [intro X; apply NI, B, X|exact A]|]. split; [intros x [X|X]; [left; exact X|right; apply B, X]|].
    intro x. rewrite C. destruct (String.eqb_spec y x) as [->|_]; [|reflexivity]. destruct (String.eqb_spec d x); [congruence|reflexivity].
Qed.
Lemma insert_key_in d l x : In x (map fst (insert_key d l)) <-> x = fst d \/ In x (map fst l).
Proof. induction l as [|e t IH]; cbn; [intuition congruence|]. destruct (String.ltb (fst d) (fst e)); cbn; [intuition congruence|]. rewrite IH. intuition congruence. Qed.
Lemma insert_key_get d l x : ~ In (fst d) (map fst l) -> getattr (insert_key d l) x = if String.eqb (fst d) x then Some (snd d) else getattr l x.
Proof.
  destruct d as [y v]. cbn [fst snd]. induction l as [|[z w] t IH]; cbn; intro N; [reflexivity|]. destruct (String.ltb y z); [reflexivity|]. cbn. rewrite IH by tauto.
  destruct (String.eqb_spec z x) as [->|_]; [|reflexivity]. destruct (String.eqb_spec y x); [exfalso; apply N; left; congruence|reflexivity].
Qed.
Lemma ltb_flip a b : a <> b -> String.ltb a b = false -> String.ltb b a = true.
Proof.
  unfold String.ltb. intros N H. rewrite String.compare_antisym. destruct (String.compare a b) eqn:E; [|discriminate|reflexivity].
  apply String.compare_eq_iff in E. congruence.
Qed.
Lemma insert_key_ordered d l : ~ In (fst d) (map fst l) -> ordered (map fst l) -> ordered (map fst (insert_key d l)).
Proof.
  induction l as [|e t IH]; intros N O; [exact Logic.I|]. cbn [insert_key]. destruct (String.ltb (fst d) (fst e)) eqn:L; [cbn [map ordered]; split; [exact L|exact O]|].
  assert (FL : String.ltb (fst e) (fst d) = true) by (apply ltb_flip; [intro X; apply N; left; congruence|exact L]).
  assert (OT : ordered (map fst t)) by (destruct t; [exact Logic.I|exact (proj2 O)]).
  assert (NT : ~ In (fst d) (map fst t)) by (intro X; apply N; right; exact X). specialize (IH NT OT). destruct t as [|e' t']; [split; [exact FL|exact Logic.I]|].
  cbn [insert_key] in *. destruct (String.ltb (fst d) (fst e')) eqn:L'; cbn [map ordered] in *; [split; [exact FL|exact IH]|split; [exact (proj1 O)|exact IH]].
Qed.
Lemma sort_keys_ok ns : NoDup (map fst ns) -> ordered (map fst (sort_keys ns)) /\ (forall x, In x (map fst (sort_keys ns)) <-> In x (map fst ns)) /\ forall x, getattr (sort_keys ns) x = getattr ns x.
Proof.
  unfold sort_keys. induction ns as [|[y w] t IH]; cbn [map fold_right fst]; intro N; [split; [exact Logic.I|split; [intro; reflexivity|reflexivity]]|]. inversion N as [|? ? NI NT]; subst.
  destruct (IH NT) as [A [B C]]. assert (NI' : ~ In y (map fst (fold_right insert_key [] t))) by (rewrite B; exact NI). split; [apply insert_key_ordered; assumption|]. split.
  - intro x. rewrite insert_key_in. cbn [fst In]. rewrite B. intuition congruence.
  - intro x. rewrite insert_key_get by exact NI'. cbn [fst snd getattr]. rewrite C. reflexivity.
Qed.
Lemma getattr_in ns d v : NoDup (map fst ns) -> In (d, v) ns -> getattr ns d = Some v.
Proof.
  induction ns as [|[y w] t IH]; cbn; [tauto|]. intros N [E|I].
  - injection E as -> ->. rewrite eqb_refl_string. reflexivity.
  - inversion N as [|? ? NI NT]; subst. destruct (String.eqb_spec y d) as [->|_]; [|auto]. destruct NI. apply in_map_iff. exists (d, v). auto.
Qed.
Lemma nested_written b e : nested b e = written b e.
Proof. unfold nested, written. destruct b as [|x [|y t]]; reflexivity. Qed.
Lemma compatible_length b e : compatible b e <-> length (written b e) = length e.
Proof. unfold compatible, written. destruct b as [|x [|y t]]; cbn [length]; rewrite ?repeat_length; intuition lia. Qed.
Lemma forallb_repeat {A} (f : A -> bool) x n : f x = true -> forallb f (repeat x n) = true.
Proof. intro H. induction n as [|n IH]; cbn; [reflexivity|]. rewrite H. exact IH. Qed.
Lemma written_serialisable b e : serialisable (VList b) = true -> serialisable (VList (written b e)) = true.
Proof. intro H. unfold written. destruct b as [|x [|y t]]; [exact H| |exact H]. cbn [serialisable]. apply forallb_repeat. exact H. Qed.
Lemma config_file_ok ns b e l : NoDup (map fst ns) -> getattr ns "batch_size" = Some (VList b) -> getattr ns "num_epoch" = Some (VList e) -> getattr ns "learning_rate" = Some (VList l) ->
  (forall d v, d <> "func"%string -> getattr ns d = Some v -> serialisable v = true) ->
  (compatible b e -> compatible l e -> forall path, getattr ns "output_path" = Some (VStr path) ->
     exists file, config_file ns = Ok file /\ ordered (map fst file) /\ forall d, getattr file d = stages_file ns b e l d) /\
  (~ compatible b e \/ ~ compatible l e -> config_file ns = Err AssertionError).
Proof.
  intros N B E L SER. unfold config_file, valid_stages. rewrite B, E, L. cbn [as_list bind]. rewrite !nested_written.
  set (ns1 := if length b =? 1 then setattr "batch_size" (VList (written b e)) ns else ns).
  set (ns2 := if length l =? 1 then setattr "learning_rate" (VList (written l e)) ns1 else ns1).
  assert (N2 : NoDup (map fst ns2)).
  { assert (N1 : NoDup (map fst ns1)) by (unfold ns1; destruct (length b =? 1); [apply nodup_setattr|]; exact N). unfold ns2. destruct (length l =? 1); [apply nodup_setattr|]; exact N1. }
  assert (G2 : forall d, getattr ns2 d = if String.eqb d "batch_size" then Some (VList (written b e)) else if String.eqb d "learning_rate" then Some (VList (written l e)) else getattr ns d).
  { assert (G1 : forall d, getattr ns1 d = if String.eqb d "batch_size" then Some (VList (written b e)) else getattr ns d).
    { intro d. unfold ns1. destruct (Nat.eqb_spec (length b) 1) as [X|X].
      - rewrite getattr_setattr, (String.eqb_sym "batch_size" d). reflexivity.
      - destruct (String.eqb_spec d "batch_size") as [->|_]; [|reflexivity]. rewrite B. unfold written. destruct b as [|x [|y t]]; [reflexivity|cbn in X; congruence|reflexivity]. }
    intro d. unfold ns2. destruct (Nat.eqb_spec (length l) 1) as [X|X].
    - rewrite getattr_setattr, G1, (String.eqb_sym "learning_rate" d). destruct (String.eqb_spec d "learning_rate") as [->|_]; reflexivity.
    - rewrite G1. destruct (String.eqb_spec d "batch_size") as [->|_]; [reflexivity|]. destruct (String.eqb_spec d "learning_rate") as [->|_]; [|reflexivity]. rewrite L. unfold written. destruct l as [|x [|y t]]; [reflexivity|cbn in X; congruence|reflexivity]. }
  split.
  - intros CB CL path P. apply compatible_length in CB. apply compatible_length in CL. rewrite CB, CL, Nat.eqb_refl. cbn [andb bind]. unfold save_config.
    set (ns3 := match getattr ns2 "func" with Some _ => delattr "func" ns2 | None => ns2 end).
    assert (G3 : NoDup (map fst ns3) /\ forall d, getattr ns3 d = stages_file ns b e l d).
    { unfold ns3, stages_file. destruct (getattr ns2 "func") eqn:F.
      - destruct (delattr_ok "func" ns2 N2) as [A [_ C]]. split; [exact A|]. intro d. rewrite C, G2, (String.eqb_sym "func" d). reflexivity.
      - split; [exact N2|]. intro d. rewrite <- G2. destruct (String.eqb_spec d "func") as [->|_]; [exact F|reflexivity]. }
    destruct G3 as [N3 G3]. rewrite G3. unfold stages_file at 1. cbn [String.eqb Ascii.eqb Bool.eqb]. rewrite P.
    assert (forallb (fun d => serialisable (snd d)) ns3 = true) as ->.
    { apply forallb_forall. intros [d v] I. cbn [snd]. pose proof (getattr_in ns3 d v N3 I) as G. rewrite G3 in G. unfold stages_file in G.
      destruct (String.eqb_spec d "func") as [_|NF]; [discriminate|]. destruct (String.eqb d "batch_size"); [injection G as <-; apply written_serialisable, (SER "batch_size"%string); [discriminate|exact B]|].
      destruct (String.eqb d "learning_rate"); [injection G as <-; apply written_serialisable, (SER "learning_rate"%string); [discriminate|exact L]|]. exact (SER d v NF G). }
    cbn [bind fst]. destruct (sort_keys_ok ns3 N3) as [A [_ C]]. exists (sort_keys ns3). split; [reflexivity|]. split; [exact A|]. intro d. rewrite C. apply G3.
  - intro H. assert ((length (written b e) =? length e) && (length (written l e) =? length e) = false) as ->; [|reflexivity].
    apply andb_false_iff. destruct H as [H|H]; [left|right]; apply Nat.eqb_neq; intro X; apply H, compatible_length, X.
Qed.

(** ** Errors *)
Lemma classify_outcome os l : (exists t, classify os l = Done t) \/ classify os l = Exit 2.
Proof.
  induction l as [|s t IH]; [left; eexists; reflexivity|]. cbn [classify]. destruct (String.eqb s "--"); [left; eexists; reflexivity|].
  assert (PO : (exists k, parse_optional os s = Done k) \/ parse_optional os s = Exit 2).
  { unfold parse_optional. destruct (negb (first_is dash s)); [eauto|]. destruct (find_flag os s); [eauto|]. destruct (String.length s =? 1); [eauto|].
    destruct (match split_eq s with Some (a, b) => match find_flag os a with Some o => Some (o, a, b) | None => None end | None => None end) as [[[o a] b]|]; [eauto|].
    destruct (option_tuples os s) as [|[[o f] e] [|y r]]; [destruct (negative_number s); [eauto|destruct (has_space s); eauto]|eauto|right; reflexivity]. }
  destruct PO as [[k ->]| ->]; [|right; reflexivity]. cbn [andthen]. destruct IH as [[r ->]| ->]; [left; eexists; reflexivity|right; reflexivity].
Qed.
Lemma ambiguous_exit os w : flags_ok os -> ambiguous os w -> parse_optional os w = Exit 2.
Proof.
  intros OK [NF [NE [[c [t W]] [f [g [N [F [G [PF PG]]]]]]]]]. unfold parse_optional. assert (first_is dash w = true) as -> by (rewrite W; reflexivity). cbn [negb].
  rewrite (find_flag_none os w NF). assert (String.length w =? 1 = false) as -> by (rewrite W; reflexivity). rewrite (split_eq_none w NE).
  assert (T : map (fun t => snd (fst t)) (option_tuples os w) = filter (String.prefix w) (flat_map flags os)).
  { rewrite tuples_flags by (rewrite W; reflexivity). rewrite (split_eq_none w NE). reflexivity. }
  apply prefix_app in PF. apply prefix_app in PG.
  assert (IF : In f (map (fun t => snd (fst t)) (option_tuples os w))) by (rewrite T; apply filter_In; auto).
  assert (IG : In g (map (fun t => snd (fst t)) (option_tuples os w))) by (rewrite T; apply filter_In; auto).
  destruct (option_tuples os w) as [|a [|b r]]; [destruct IF| |destruct a as [[? ?] ?]; reflexivity]. cbn in IF, IG. destruct IF as [IF|[]], IG as [IG|[]]. congruence.
Qed.
Lemma classify_exit os pre w post : ~ In "--"%string pre -> w <> "--"%string -> parse_optional os w = Exit 2 -> classify os (pre ++ w :: post) = Exit 2.
Proof.
  intros N NW E. induction pre as [|s t IH]; cbn [app classify].
  - destruct (String.eqb_spec w "--"); [congruence|]. rewrite E. reflexivity.
  - destruct (String.eqb_spec s "--") as [->|_]; [destruct N; left; reflexivity|]. rewrite IH by (intro X; apply N; right; exact X).
    pose proof (classify_outcome os [s]) as X. cbn [classify] in X. destruct (String.eqb s "--") eqn:SE; [apply String.eqb_eq in SE; destruct N; left; symmetry; congruence|].
    destruct (parse_optional os s) as [k|n|e]; [reflexivity| |]; cbn in X; destruct X as [[y X]|X]; try discriminate; injection X as ->; reflexivity.
Qed.
Lemma get_value_unreadable rf k c s : (forall v, reads rf k s v -> ~ permitted c v) -> get_value rf k c s = Exit 2.
Proof.
  intro H. unfold get_value. destruct (convert rf k s) as [v|] eqn:E; [|reflexivity].
  assert (RD : reads rf k s v). { destruct k; cbn in E; [destruct (int_of_string s) eqn:X|destruct (rf s) eqn:X|]; try discriminate; injection E as <-; constructor; exact X. }
  specialize (H v RD). destruct (allowed c v) eqn:A; [|reflexivity]. exfalso. apply H. destruct c as [l|]; [|exact Logic.I]. cbn in *. apply existsb_exists in A. destruct A as [x [I X]]. apply same_value_eq in X. subst x. exact I.
Qed.
Lemma get_list_unreadable rf k c l : (exists s, In s l /\ forall v, reads rf k s v -> ~ permitted c v) -> get_list rf k c l = Exit 2.
Proof.
  induction l as [|x t IH]; intros [s [I H]]; [destruct I|]. cbn [get_list].
  assert (GV : (exists v, get_value rf k c x = Done v) \/ get_value rf k c x = Exit 2) by (unfold get_value; destruct (convert rf k x) as [v|]; [|right; reflexivity]; destruct (allowed c v); eauto).
  destruct I as [->|I]; [rewrite (get_value_unreadable rf k c s H); reflexivity|]. destruct GV as [[v ->]| ->]; [|reflexivity]. cbn [andthen]. rewrite IH by eauto. reflexivity.
Qed.
Lemma bad_value_exit rf p ss l w o args ss2 l2 : flags_ok (options p) -> Forall2 (denotes rf (options p)) ss l -> names (options p) w o -> Forall plain args -> unreadable rf o args ->
  Forall2 (denotes rf (options p)) ss2 l2 -> parse_args rf p NoPositional (flat_map text ss ++ (w :: args) ++ flat_map text ss2) = Exit 2.
Proof.
  intros OK F N P U F2. unfold parse_args. cbv zeta iota. unfold parse_known.
  destruct (settings_steps rf (options p) OK (positionals rf) ss l F) as [toks [RA [LE [_ ST]]]].
  destruct (settings_steps rf (options p) OK (positionals rf) ss2 l2 F2) as [toks2 [RA2 [_ [HD2 _]]]].
  destruct (names_word (options p) OK w o N) as [_ [_ [_ NS]]]. destruct (parse_names (options p) OK w o N) as [f [IF E]].
  assert (RB : read_as (options p) ((Option_ (Some o) f None, w) :: map (fun x => (Arg, x)) args) (w :: args)).
  { constructor; [split; [exact NS|split; [exact E|reflexivity]]|apply read_as_args; assumption]. }
  rewrite (classify_app (options p) toks _ _ RA), (classify_app (options p) _ _ _ RB). pose proof (classify_app (options p) toks2 _ [] RA2) as CL2. rewrite app_nil_r in CL2. rewrite CL2. cbn [classify andthen]. rewrite app_nil_r.
  set (T := ((Option_ (Some o) f None, w) :: map (fun x => (Arg, x)) args) ++ toks2).
  replace (S (length (toks ++ T))) with (length ss + S (length toks + length T - length ss)) by (rewrite app_length; lia).
  rewrite ST by (right; exact Logic.I). unfold T at 2. cbn [app consume existsb is_option fst orb]. unfold option_actions.
  assert (NA : no_arg_first toks2).
  { destruct ss2 as [|s ss2]; [inversion RA2; exact Logic.I|]. destruct HD2 as [t [u [-> IO]]]; [discriminate|]. destruct t as [[| |] x]; [discriminate|exact Logic.I|exact Logic.I]. }
  assert (NSEP : ~ In "--"%string args) by (intro I; rewrite Forall_forall in P; exact (plain_not_separator _ (P _ I) eq_refl)).
  assert (AC : exists n, arg_count (act o) (map (fun x => (Arg, x)) args ++ toks2) = Done n /\ map snd (firstn n (map (fun x => (Arg, x)) args ++ toks2)) = args /\ exists k c m, act o = Store m k c /\ get_values rf m k c args = Exit 2).
  { unfold unreadable in U. destruct (act o) as [[| |] k c|b|]; [| | |destruct U|destruct U].
    - destruct U as [s [-> U]]. exists 1. unfold arg_count. rewrite (span_args [s] toks2 NA). split; [reflexivity|]. split; [reflexivity|]. exists k, c, One. split; [reflexivity|].
      unfold get_values. rewrite (remove_separator_id [s] NSEP). apply get_value_unreadable, U.
    - destruct U as [s [-> U]]. exists 1. unfold arg_count. rewrite (span_args [s] toks2 NA). split; [reflexivity|]. split; [reflexivity|]. exists k, c, Optional. split; [reflexivity|].
      unfold get_values. rewrite (remove_separator_id [s] NSEP). apply get_value_unreadable, U.
    - destruct U as [s [I U]]. exists (length args). unfold arg_count. rewrite (span_args args toks2 NA), map_length. split; [destruct args; [destruct I|reflexivity]|]. split; [rewrite firstn_map_app, map_map; cbn [snd]; apply map_id|].
      exists k, c, OneOrMore. split; [reflexivity|]. unfold get_values. rewrite (remove_separator_id args NSEP). rewrite get_list_unreadable by eauto. reflexivity. }
  destruct AC as [n [-> [FN [k [c [m [A GV]]]]]]]. cbn [andthen fst snd take_actions]. rewrite FN. unfold take_action. rewrite A, GV. reflexivity.
Qed.
