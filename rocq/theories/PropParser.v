(** Property theorems about parsing as a whole: C02 - C08 (and C40). *)
From Coq Require Import NArith String Bool Lia Arith List.
Import ListNotations.
From Verif Require Import Text Kind Regex Lexer LexerProofs PropLexer ParserApi GrammarExpr GrammarTags
  GrammarHtml Machine TreeMachine Simulation TreeSpec WpBase Total TotalApi TotalHtml Render.
Local Open Scope list_scope.
Local Open Scope prog_scope.
Local Notation length := List.length (only parsing).

(** * The outcome of a parse *)

Lemma lex_nil : forall src, lex src = [] -> src = [].
Proof. intros src H. destruct (C01_lex_lossless src) as [E _]. rewrite H in E. now rewrite <- E. Qed.

Lemma parse_outcome : forall dbg T, T <> [] ->
  (exists cs errs, parse_tokens dbg (parse_fuel T) T = OK (Node ROOT cs, errs) /\
     merges (flat_map leaves cs) T /\ Forall (err_ok T) errs) \/
  (exists q, parse_tokens dbg (parse_fuel T) T = Panicked q /\ allowed_in dbg T q).
Proof.
  intros dbg T HT. pose proof (parse_tokens_sim dbg (parse_fuel T) T) as H.
  pose proof (root_wp dbg T HT (t_root T)) as W. unfold parse_fuel in *.
  assert (Hw : wf T (t_root T)).
  { constructor; cbn [t_root t_rest t_snk t_items t_stack t_errs]; auto.
    - exists []. reflexivity.
    - exists []. split; [reflexivity|]. cbn. constructor.
    - exists Apart. split; [reflexivity|]. congruence. }
  specialize (W Hw eq_refl eq_refl eq_refl).
  destruct (run (tstep false dbg T) (2 * length T + 1) root_body (t_root T)) as [[u s]|q|]; cbn [holds] in W.
  - destruct W as ([W1 W2 W3 (pre & W4 & W5) _] & Hd & Hs). left.
    rewrite W1 in H. specialize (H Hs Hd). do 2 eexists. split; [exact H|]. split; [|exact W3].
    rewrite Hs in W5. cbn [frames trees flat_map app] in W5.
    rewrite flat_map_app, W4. apply merges_app; [exact W5|apply merges_leaf].
  - right. exists q. split; [|exact W].
    destruct W as [[_ E]|[_ [E|[E|E]]]]; subst q; exact H.
  - destruct W.
Qed.

(** Trivia that follows trivia is its sibling. *)
Lemma parse_tidy : forall dbg src cs errs, parse_src dbg src = OK (Node ROOT cs, errs) ->
  scans cs Apart <> None.
Proof.
  intros dbg src cs errs H. unfold parse_src in H. revert H. destruct (lex src) as [|t0 T0].
  { assert (E : parse_tokens dbg (parse_fuel []) [] = OK (Node ROOT [], [])) by (destruct dbg; vm_compute; reflexivity).
    rewrite E. intros H. injection H as <- _. discriminate. }
  generalize (t0 :: T0), (@nil_cons _ t0 T0). clear. intros T HT H. cbv zeta in H.
  pose proof (parse_tokens_sim dbg (parse_fuel T) T) as Sim.
  pose proof (root_wp dbg T (not_eq_sym HT) (t_root T)) as W. unfold parse_fuel in *.
  assert (Hw : wf T (t_root T)).
  { constructor; cbn [t_root t_rest t_snk t_items t_stack t_errs]; auto.
    - exists []. reflexivity.
    - exists []. split; [reflexivity|]. cbn. constructor.
    - exists Apart. split; [reflexivity|]. congruence. }
  specialize (W Hw eq_refl eq_refl eq_refl).
  destruct (run (tstep false dbg T) (2 * length T + 1) root_body (t_root T)) as [[u s]|q|]; cbn [holds] in W.
  - destruct W as ([W1 _ _ _ (p & W4 & W5)] & Hd & Hs). rewrite W1 in Sim. specialize (Sim Hs Hd).
    rewrite Sim in H. injection H as <- _. rewrite Hs in W4. cbn [scan_frames scan_items across] in W4.
    rewrite scans_app, (scan_items_trees _ _ _ W4).
    assert (Tr : take_trivia (t_snk s) = t_snk s).
    { rewrite <- (take_drop_trivia (t_snk s)) at 2. now rewrite W1, Hd, app_nil_r. }
    rewrite scans_trivia; [discriminate|rewrite <- Tr; apply take_all_trivia|].
    intros N X. subst p. rewrite Tr in W5. apply N, W5. discriminate.
  - destruct q; try discriminate; try (rewrite Sim in H; discriminate). exfalso.
    destruct W as [[_ X]|[_ [X|[X|X]]]]; discriminate X.
  - rewrite Sim in H. discriminate.
Qed.

Lemma outcome : forall dbg src,
  (exists cs errs, parse_src dbg src = OK (Node ROOT cs, errs) /\
     merges (flat_map leaves cs) (lex src) /\ Forall (err_ok (lex src)) errs) \/
  (exists q, parse_src dbg src = Panicked q /\ allowed_in dbg (lex src) q).
Proof.
  intros dbg src. unfold parse_src. destruct (lex src) as [|t T] eqn:E.
  - left. exists [], []. repeat split; auto; [|constructor]. now destruct dbg; vm_compute.
  - apply parse_outcome. discriminate.
Qed.

Ltac outcome_of H :=
  match type of H with parse_src ?dbg ?src = _ =>
    let cs := fresh "cs" in let errs := fresh "es" in let E := fresh "E" in
    let Hm := fresh "Hm" in let He := fresh "He" in
    destruct (outcome dbg src) as [(cs & errs & E & Hm & He)|(? & E & ?)]; rewrite H in E;
    [injection E as -> -> | discriminate] end.

(** * C02: parsing is lossless *)

Theorem C02_parse_lossless : forall dbg src t errs, parse_src dbg src = OK (t, errs) ->
  tree_kind t = ROOT /\ tree_text t = src.
Proof.
  intros dbg src t errs H. outcome_of H. split; [reflexivity|].
  unfold tree_text. cbn [leaves]. rewrite (merges_text _ _ Hm). apply C01_lex_lossless.
Qed.

(** A source with syntax errors, error recovery and text outside of ASCII. *)
Example C02_case : exists t errs,
  parse_src true (txt "<div class=a {% if" ++ [228]%N ++ txt " x %}}}{{ }}</span") = OK (t, errs) /\
  length errs = 7 /\ length (leaves t) = 21.
Proof. do 2 eexists. split; [vm_compute; reflexivity|]. split; vm_compute; reflexivity. Qed.

(** * C08: tree tokens refine lexer tokens *)

Theorem C08_leaves_refine_tokens : forall dbg src t errs, parse_src dbg src = OK (t, errs) ->
  merges (leaves t) (lex src).
Proof. intros dbg src t errs H. outcome_of H. exact Hm. Qed.

(** Both deviations occur: the keyword for becomes a word, and so does the colon with
    the word after it. *)
Example C08_case : exists t, parse_src true (txt "<a :b=""x"" for/>") = OK (t, []) /\
  map tk_kind (lex (txt "<a :b=""x"" for/>")) =
    [TK_LESS_THAN; TK_WORD; TK_WHITESPACE; TK_COLON; TK_WORD; TK_EQUAL; TK_DOUBLE_QUOTES; TK_WORD;
     TK_DOUBLE_QUOTES; TK_WHITESPACE; TK_FOR; TK_SLASH_GREATER_THAN] /\
  map fst (leaves t) =
    [TK_LESS_THAN; TK_WORD; TK_WHITESPACE; TK_WORD; TK_EQUAL; TK_DOUBLE_QUOTES; TK_WORD;
     TK_DOUBLE_QUOTES; TK_WHITESPACE; TK_WORD; TK_SLASH_GREATER_THAN].
Proof. eexists. split; [vm_compute; reflexivity|]. split; vm_compute; reflexivity. Qed.

(** * C06: parse errors point into the source *)

(** The range of every error is the range of a token, so it lies inside the source, and both
    its ends are positions between two characters: [src] splits there. *)
Theorem C06_error_ranges : forall dbg src t errs, parse_src dbg src = OK (t, errs) ->
  forall e, In e errs ->
  err_start e < err_end e /\ err_end e <= blen src /\
  exists a w b, src = a ++ w ++ b /\ blen a = err_start e /\ blen (a ++ w) = err_end e /\
  exists tok, In tok (lex src) /\ tk_text tok = w /\ tk_start tok = err_start e /\ tk_end tok = err_end e /\
              (err_found e = None \/ err_found e = Some (tk_kind tok)).
Proof.
  intros dbg src t errs H e Hin. outcome_of H. rewrite Forall_forall in He.
  destruct (He e Hin) as (tok & Ht & -> & -> & Hf).
  destruct (C01_lex_lossless src) as (Htx & _ & Hadj).
  assert (G : forall l p q, adjacent p l q -> In tok l -> exists a b,
    List.concat (map tk_text l) = a ++ tk_text tok ++ b /\ p + blen a = tk_start tok /\
    tk_end tok = tk_start tok + blen (tk_text tok) /\ tk_start tok < tk_end tok).
  { induction 1 as [p|p u us q H1 H2 H3 H4 IH]; intros Hi; [destruct Hi|]. cbn [map List.concat].
    destruct Hi as [->|Hi].
    - exists [], (List.concat (map tk_text us)). cbn. repeat split; lia.
    - destruct (IH Hi) as (a & b & E1 & E2 & E3 & E4). exists (tk_text u ++ a), b.
      rewrite E1, <- app_assoc, blen_app. repeat split; auto; lia. }
  destruct (G _ _ _ Hadj Ht) as (a & b & E1 & E2 & E3 & E4). rewrite Htx in E1. cbn in E2.
  assert (tk_end tok <= blen src) by (rewrite E1, !blen_app; lia).
  split; [exact E4|]. split; [assumption|]. exists a, (tk_text tok), b.
  split; [exact E1|]. split; [exact E2|]. split; [rewrite blen_app; lia|].
  exists tok. auto.
Qed.

Example C06_case : exists t, parse_src true ([8364]%N ++ txt "</p>{{ a") = OK (t,
  [mkErr 3 5 (Some TK_LESS_THAN_SLASH) (txt "html, text or twig element");
   mkErr 10 11 None (txt "}} or -}} or ~}}")]).
Proof. eexists. vm_compute. reflexivity. Qed.

(** * C40: printing a parse error never crashes *)

(** Every kind of the lexer's tokens has a name. *)
Lemma lexed_display : forall src t, In t (lex src) -> kind_display (tk_kind t) <> None.
Proof.
  intros src t Hin. apply in_split in Hin as (pre & post & E).
  destruct (C09_longest_match _ _ _ _ E) as [(-> & _)|(p & k & w & (_ & _ & _ & t1 & t2 & Et & _) & _ & Hc)].
  - discriminate.
  - assert (Hk : kind_display k <> None).
    { assert (F : forallb (fun e => match kind_display (snd e) with Some _ => true | None => false end) lex_table = true)
        by (vm_compute; reflexivity).
      rewrite forallb_forall in F. specialize (F (p, k)). cbn [snd] in F.
      rewrite Et in F. specialize (F (in_elt _ _ _)). destruct (kind_display k); [discriminate|discriminate F]. }
    destruct Hc as [(_ & _ & -> & _)|[[-> [[-> _]|[-> _]]]|[-> [[-> _]|[-> _]]]]]; auto; discriminate.
Qed.

(** Its Display implementation (modelled by [error_display], which is [None] where the code
    panics) yields a message for every reported error. *)
Theorem C40_errors_printable : forall dbg src t errs, parse_src dbg src = OK (t, errs) ->
  forall e, In e errs -> error_display e <> None.
Proof.
  intros dbg src t errs H e Hin.
  destruct (C06_error_ranges _ _ _ _ H _ Hin) as (_ & _ & a & w & b & _ & _ & _ & tok & Ht & _ & _ & _ & Hf).
  unfold error_display, expected_message. destruct Hf as [-> | ->]; [discriminate|].
  pose proof (lexed_display _ _ Ht) as Hd. destruct (kind_display (tk_kind tok)); [discriminate|contradiction].
Qed.

Example C40_case : option_map (List.map error_display)
    (match parse_src true (txt "{% if %}{% endif ") with OK (_, errs) => Some errs | _ => None end) =
  Some [Some (txt "error at 6..8: expected twig expression but found %}");
        Some (txt "error at 16..17: expected %} or -%} or ~%} but reached end of file")].
Proof. vm_compute. reflexivity. Qed.

(** * C04: parsing terminates *)

Lemma run_fuel_mono : forall (St : Type) (step : forall B : Set, op B -> St -> res (B * St)),
  forall n (A : Set) (p : prog A) s, run step n p s <> NoFuel -> forall m, n <= m -> run step m p s = run step n p s.
Proof.
  intros St step. induction n as [n IHn] using (well_founded_induction lt_wf).
  intros A p. induction p as [A a|A B o k IH|A c k IH|A X B f IHf x k IH]; intros s H m Hm.
  - now rewrite !run_Ret.
  - rewrite !run_Op in *. destruct (step B o s) as [[b s1]|q|]; cbn [rbind fst snd] in *; auto.
  - rewrite !run_Call in *. destruct n as [|n]; [contradiction|]. destruct m as [|m]; [lia|].
    destruct (run step n (body c) s) as [[b s1]|q|] eqn:E; cbn [rbind fst snd] in *; [| |contradiction].
    + rewrite (IHn n) with (m := m), E; [|lia|congruence|lia]. cbn [rbind fst snd]. auto.
    + rewrite (IHn n) with (m := m), E; [|lia|congruence|lia]. reflexivity.
  - rewrite !run_Iter in *. destruct (run step n (f x) s) as [[y s1]|q|] eqn:E; cbn [rbind fst snd] in *; [| |contradiction].
    + rewrite (IHf x s) with (m := m), E; [|congruence|lia]. cbn [rbind fst snd]. destruct y as [x'|b].
      * destruct n as [|n]; [contradiction|]. destruct m as [|m]; [lia|].
        destruct (run step n (Iter f x' (fun b => Ret b)) s1) as [[b s2]|q|] eqn:E2; cbn [rbind fst snd] in *; [| |contradiction].
        -- rewrite (IHn n) with (m := m), E2; [|lia|congruence|lia]. cbn [rbind fst snd]. auto.
        -- rewrite (IHn n) with (m := m), E2; [|lia|congruence|lia]. reflexivity.
      * cbn [rbind fst snd] in *. auto.
    + rewrite (IHf x s) with (m := m), E; [|congruence|lia]. reflexivity.
Qed.

(** The parse ends (with a result or a panic) within a depth of nested grammar calls and
    loop rounds that is linear in the number of tokens, hence in the length of the source;
    more fuel does not change its outcome. *)
Theorem C04_parse_terminates : forall dbg src, exists n,
  n <= 2 * length (lex src) + 1 /\ n <= 2 * length src + 1 /\
  parse_tokens dbg n (lex src) <> NoFuel /\
  forall m, n <= m -> parse_tokens dbg m (lex src) = parse_src dbg src.
Proof.
  intros dbg src. exists (parse_fuel (lex src)).
  assert (HL : length (lex src) <= length src).
  { destruct (C01_lex_lossless src) as (E & Hne & _). rewrite <- E at 2. clear E.
    induction Hne as [|t ts Ht Hne IH]; [cbn; lia|]. cbn [map List.concat length]. rewrite app_length.
    destruct (tk_text t); [contradiction|]. cbn [length]. lia. }
  assert (HN : parse_tokens dbg (parse_fuel (lex src)) (lex src) <> NoFuel).
  { destruct (outcome dbg src) as [(cs & errs & E & _)|(q & E & _)]; unfold parse_src in E; congruence. }
  unfold parse_fuel in *. split; [lia|]. split; [lia|]. split; [exact HN|]. intros m Hm. unfold parse_src, parse_fuel, parse_tokens, parser_parse in *.
  rewrite (run_fuel_mono _ _ (2 * length (lex src) + 1)); [reflexivity| |exact Hm].
  intros E. rewrite E in HN. now apply HN.
Qed.

Example C04_case : parse_tokens true 3 (lex (txt "{{ [[[a]]] }}")) = NoFuel /\
  exists r, parse_src true (txt "{{ [[[a]]] }}") = OK r.
Proof. split; [vm_compute; reflexivity|]. eexists. vm_compute. reflexivity. Qed.

(** * C03: parsing never crashes *)

Definition C03_statement : Prop := forall dbg src, exists r, parse_src dbg src = OK r.

Theorem C03_never_crashes_refuted : ~ C03_statement.
Proof. intros H. destruct (H false (txt "{{ (a,")) as [r E]. vm_compute in E. discriminate. Qed.

(** The crashes: an unfinished argument list of an arrow function and an unfinished Twig
    block inside of a script element at the end of the file in all builds, and every
    parenthesised list that is no arrow function in debug builds. *)
Example C03_crash_1 : parse_src false (txt "{{ (a,") = Panicked (PBump SArrow).
Proof. vm_compute. reflexivity. Qed.
Example C03_crash_2 : parse_src false (txt "<script>{%") = Panicked (PBump SRawText).
Proof. vm_compute. reflexivity. Qed.
Example C03_crash_3 : parse_src true (txt "{{ (a,b) }}") = Panicked (PDebugAssert SArrow).
Proof. vm_compute. reflexivity. Qed.

(** Nothing else crashes.  Missing for C03: these crashes themselves. *)
Theorem C03_never_crashes_partial : forall dbg src,
  (exists r, parse_src dbg src = OK r) \/
  parse_src dbg src = Panicked (PBump SArrow) \/
  parse_src dbg src = Panicked (PBump SRawText) \/
  parse_src dbg src = Panicked (PBump SRawInner) \/
  (dbg = true /\ parse_src dbg src = Panicked (PDebugAssert SArrow)).
Proof.
  intros dbg src. destruct (outcome dbg src) as [(cs & errs & E & _)|(q & E & Ha)].
  - left. eauto.
  - right. rewrite E. destruct Ha as [[-> ->]|[_ [->|[->| ->]]]]; auto.
Qed.

(** * C05: templates that end in a closing delimiter never crash the parser *)

Definition closing : list kind :=
  [TK_CLOSE_CURLY_CURLY; TK_MINUS_CLOSE_CURLY_CURLY; TK_TILDE_CLOSE_CURLY_CURLY;
   TK_PERCENT_CURLY; TK_MINUS_PERCENT_CURLY; TK_TILDE_PERCENT_CURLY;
   TK_GREATER_THAN; TK_CLOSE_CURLY; TK_CLOSE_SQUARE].

Definition ends_in (ks : list kind) (src : text) : Prop :=
  exists pre t post, lex src = pre ++ t :: post /\ In (tk_kind t) ks /\
    Forall (fun u => tk_kind u = TK_WHITESPACE \/ tk_kind u = TK_LINE_BREAK) post.

Lemma closing_no_name : forall src t, In t (lex src) -> In (tk_kind t) closing -> is_closer t = true.
Proof.
  intros src t Hin Hk. apply in_split in Hin as (pre & post & E). unfold is_closer.
  replace (mem_kind (tk_kind t) closers) with true
    by (symmetry; apply mem_kind_in; vm_compute in Hk |- *; tauto).
  destruct (C09_longest_match _ _ _ _ E) as [(Hu & _)|(p & k & w & (_ & Hd & _ & t1 & t2 & Et & _) & _ & Hc)].
  - rewrite Hu in Hk. vm_compute in Hk. repeat destruct Hk as [Hk|Hk]; discriminate || destruct Hk.
  - assert (Hkw : tk_kind t = k /\ tk_text t = w).
    { destruct Hc as [(_ & _ & -> & ->)|[[-> [[E1 ->]|[E1 ->]]]|[-> [[E1 ->]|[E1 ->]]]]]; auto;
        exfalso; rewrite E1 in Hk; vm_compute in Hk; repeat destruct Hk as [Hk|Hk]; discriminate || destruct Hk. }
    destruct Hkw as [Ek Ew]. rewrite Ew. rewrite Ek in Hk.
    assert (F : forallb (fun e => negb (mem_kind (snd e) closing) ||
        match fst e with PLit l => negb (rfull TWIG_NAME_REGEX (txt l)) | _ => false end) lex_table = true)
      by (vm_compute; reflexivity).
    rewrite forallb_forall in F. specialize (F (p, k)). rewrite Et in F. specialize (F (in_elt _ _ _)).
    cbn [fst snd] in F. apply mem_kind_in in Hk. rewrite Hk in F. cbn [negb orb] in F.
    destruct p as [l| |]; try discriminate. cbn [describes] in Hd. now subst w.
Qed.

Theorem C05_closed_templates_do_not_crash : forall src, ends_in closing src ->
  exists r, parse_src false src = OK r.
Proof.
  intros src (pre & t & post & E & Hk & Hp).
  destruct (outcome false src) as [(cs & errs & Eo & _)|(q & Eo & Ha)]; [eauto|]. exfalso.
  destruct Ha as [[H _]|[H _]]; [discriminate|]. apply H. exists pre, t, post. split; [exact E|]. split; [|split].
  - apply (closing_no_name src); [|exact Hk]. rewrite E. apply in_elt.
  - revert Hk. generalize (tk_kind t). intros k Hk. cbn in Hk. intuition (subst; reflexivity).
  - eapply Forall_impl; [|exact Hp]. intros u [-> | ->]; reflexivity.
Qed.

(** A source that contains the beginnings of all three crashes, but ends well. *)
Example C05_case : ends_in closing (txt "{{ (a, <script>{% (a,b) }} ").
Proof.
  exists (firstn 17 (lex (txt "{{ (a, <script>{% (a,b) }} "))).
  do 2 eexists. split; [vm_compute; reflexivity|]. split; [vm_compute; auto|]. constructor; [now left|constructor].
Qed.

(** * C07: node bookkeeping is always balanced *)

(** The run-time with the marker assertions of debug builds switched on in a release build:
    completing a marker requires that it is the innermost open one (event.rs:82-86) and that
    its start event is still a placeholder (event.rs:92). *)
Definition checked (B : Set) (o : op B) (s : cstate) : res (B * cstate) :=
  match o in op B return (cstate -> res (B * cstate)) -> res (B * cstate) with
  | Complete m k => fun _ => c_complete true m k s
  | _ => fun f => f s
  end (cstep false B o).

Lemma checked_sim : forall T (B : Set) (o : op B) s c, rel T s c ->
  simres (rel T) (tstep false false T B o s) (checked B o c).
Proof.
  intros T B o s c H. destruct o; try exact (step_sim false T _ _ s c H).
  exact (step_sim true T _ (Complete m k) s c H).
Qed.

(** Panics of the marker bookkeeping, of the sink and of the tree builder. *)
Definition bookkeeping (q : panic) : bool :=
  match q with
  | PMarkerOrder | PMarkerPlaceholder | PMarkerIndex | PPrecede | PMarkerDropped | PSink | PBuilder | PStuck => true
  | _ => false
  end.

(** [r2] is [r1] unless [r1] is such a panic. *)
Definition unless {A : Type} (r1 r2 : res A) : Prop :=
  r1 = r2 \/ exists q, r1 = Panicked q /\ bookkeeping q = true.

Lemma unless_bind : forall (A B : Type) (r1 r2 : res A) (f g : A -> res B),
  unless r1 r2 -> (forall a, unless (f a) (g a)) -> unless (rbind r1 f) (rbind r2 g).
Proof.
  intros A B r1 r2 f g [->|(q & -> & Hq)] H.
  - destruct r2; cbn [rbind]; auto; now left.
  - right. exists q. auto.
Qed.

Lemma checked_unless : forall n (A : Set) (p : prog A) s,
  unless (run checked n p s) (run (cstep false) n p s).
Proof.
  assert (Hs : forall (B : Set) (o : op B) s, unless (checked B o s) (cstep false B o s)).
  { intros B o s. destruct o; try (now left). cbn [checked cstep]. unfold c_complete. cbn [andb].
    destruct (negb _); [right; exists PMarkerOrder; auto|].
    destruct (nth_error (c_events s) m) as [e|]; [|now left].
    destruct (negb _); [right; exists PMarkerPlaceholder; auto|now left]. }
  induction n as [n IHn] using (well_founded_induction lt_wf).
  intros A p. induction p as [A a|A B o k IH|A c k IH|A X B f IHf x k IH]; intros s.
  - rewrite !run_Ret. now left.
  - rewrite !run_Op. apply unless_bind; auto.
  - rewrite !run_Call. apply unless_bind; [|auto]. destruct n as [|n]; [now left|]. apply IHn. lia.
  - rewrite !run_Iter. apply unless_bind; [|auto]. apply unless_bind; [auto|]. intros [[x'|b] s1]; cbn [fst snd].
    + destruct n as [|n]; [now left|]. apply IHn. lia.
    + now left.
Qed.

Theorem C07_balanced : forall src, let T := lex src in
  (** no bookkeeping assertion ever fails, in either build ... *)
  (forall dbg q, parse_src dbg src = Panicked q -> bookkeeping q = false) /\
  (** ... not even with the assertions in a release build; if it comes to an end, no marker is
      left open, and the events are a balanced stream: the builder makes one tree of them *)
  (forall q, run checked (parse_fuel T) root (c_init T) = Panicked q -> bookkeeping q = false) /\
  (forall t errs, parse_src false src = OK (t, errs) -> exists m s,
     run checked (parse_fuel T) root (c_init T) = OK (m, s) /\ c_open s = [] /\ c_errs s = errs /\
     sink T (c_events s) = OK t).
Proof.
  intros src T.
  assert (H1 : forall dbg q, parse_src dbg src = Panicked q -> bookkeeping q = false).
  { intros dbg q E. destruct (C03_never_crashes_partial dbg src) as [[r H]|[H|[H|[H|[_ H]]]]];
      rewrite E in H; try discriminate; injection H as ->; reflexivity. }
  split; [exact H1|].
  assert (Hc : match run checked (parse_fuel T) root (c_init T) with
    | OK (m, s) => c_open s = [] | Panicked q => bookkeeping q = false | NoFuel => False end).
  { assert (H0 : T = [] \/ T <> []) by (destruct T; [now left|right; discriminate]). destruct H0 as [H0|H0].
    - rewrite H0. vm_compute. reflexivity.
    - pose proof (root_wp false T H0 (t_root T)) as W.
      assert (Hw : wf T (t_root T)).
      { constructor; cbn [t_root t_rest t_snk t_items t_stack t_errs]; auto.
        - exists []. reflexivity.
        - exists []. split; [reflexivity|]. cbn. constructor.
    - exists Apart. split; [reflexivity|]. congruence. }
      specialize (W Hw eq_refl eq_refl eq_refl).
      pose proof (run_sim _ _ _ _ _ (checked_sim T) (parse_fuel T) _ root _ _ (rel_init T)) as S.
      rewrite root_eq in S at 1. rewrite run_bind in S.
      change start with (Op Start (fun x => Ret x)) in S. rewrite run_Op in S. cbn [tstep rbind fst snd t_init t_nev t_items t_rest t_snk t_stack t_errs] in S.
      rewrite run_Ret in S. cbn [rbind fst snd] in S. rewrite run_bind in S.
      fold (t_root T) in S. unfold parse_fuel in *.
      destruct (run (tstep false false T) (2 * length T + 1) root_body (t_root T)) as [[u s]|q|]; cbn [holds rbind fst snd] in *.
      + destruct W as (_ & _ & Hst). unfold complete, prim in S. rewrite run_Op in S. cbn [tstep] in S.
        rewrite Hst in S. cbn [Nat.eqb rbind fst snd] in S. rewrite run_Ret in S. cbn [simres] in S.
        destruct S as (c & -> & [_ _ _ _ Ho _]). rewrite Ho. reflexivity.
      + cbn [simres] in S. destruct W as [[E _]|[_ [E|[E|E]]]]; [discriminate| | |]; subst q; rewrite S; reflexivity.
      + destruct W. }
  split.
  - intros q E. now rewrite E in Hc.
  - intros t errs E. unfold parse_src, parse_tokens, parser_parse in E. fold T in E.
    pose proof (checked_unless (parse_fuel T) _ root (c_init T)) as Hu.
    destruct (run checked (parse_fuel T) root (c_init T)) as [[m s]|q|] eqn:Er; [| |destruct Hc].
    + destruct Hu as [Hu|(q & Hu & _)]; [|discriminate].
      rewrite <- Hu in E. cbn [rbind fst snd] in E. rewrite Hc in E.
      cbn [rbind fst snd] in E. exists m, s. split; [reflexivity|]. split; [exact Hc|].
      destruct (sink T (c_events s)) as [t'| |]; cbn [rbind] in E; try discriminate.
      injection E as -> ->. auto.
    + exfalso. destruct Hu as [Hu|(q' & Hu & Hq)]; [|congruence]. rewrite <- Hu in E. discriminate.
Qed.

(** Nested nodes, re-parenting (the binary operators) and an error node. *)
Example C07_case : exists t errs, parse_src false (txt "<p>{{ a + b * c | d }} {% x </p>") = OK (t, errs) /\ length errs = 1.
Proof. do 2 eexists. split; vm_compute; reflexivity. Qed.

Print Assumptions C02_parse_lossless.
Print Assumptions C03_never_crashes_refuted.
Print Assumptions C03_never_crashes_partial.
Print Assumptions C04_parse_terminates.
Print Assumptions C05_closed_templates_do_not_crash.
Print Assumptions C06_error_ranges.
Print Assumptions C07_balanced.
Print Assumptions C08_leaves_refine_tokens.
Print Assumptions C40_errors_printable.
