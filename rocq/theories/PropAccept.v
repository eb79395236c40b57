(** C61: every well-formed template is parsed without an error.

    The grammar is the one of AccSpec.v, stated on the tokens without white space. *)
From Coq Require Import NArith String Bool Arith Lia List.
Import ListNotations.
From Verif Require Import Text Kind Regex Lexer LexerProofs ParserApi GrammarExpr GrammarTags GrammarHtml Machine TreeMachine Simulation.
From Verif Require Import AccLogic AccSpec AccRules AccExpr AccTags AccHtml.
From Verif Require PropLexer PropParser.
Local Notation length := List.length (only parsing).
Local Open Scope list_scope.

(** * What the parser relies on holds of the tokens of every source *)

(** The characters a match can start with. *)
Fixpoint first (r : regex) : cclass :=
  match r with
  | RClass cl => cl
  | RSeq a b => if nullable a then first a ++ first b else first a
  | RAlt a b => first a ++ first b
  | RStar a => first a
  | _ => []
  end.
Lemma in_class_app : forall a b c, in_class (a ++ b) c = in_class a c || in_class b c.
Proof. intros a b c. apply existsb_app. Qed.
Lemma first_spec : forall r s, rmatch r s -> forall c w, s = c :: w -> in_class (first r) c = true.
Proof.
  intros r s H. induction H as [|cl c H|a b s t Ha IHa Hb IHb|a b s Ha IHa|a b s Hb IHb|a|a s t Ha IHa Hb IHb]; intros d w E; cbn [first].
  - discriminate.
  - injection E as -> _. exact H.
  - destruct s as [|c s].
    + replace (nullable a) with true by (symmetry; now apply nullable_spec). rewrite in_class_app, (IHb _ _ E). apply orb_true_r.
    + injection E as -> _. specialize (IHa _ _ eq_refl). destruct (nullable a); [|exact IHa]. now rewrite in_class_app, IHa.
  - rewrite in_class_app, (IHa _ _ E). reflexivity.
  - rewrite in_class_app, (IHb _ _ E). apply orb_true_r.
  - discriminate.
  - destruct s as [|c s]; [now apply (IHb d w)|]. injection E as -> _. now apply (IHa d s).
Qed.
Definition apart (a b : cclass) : bool :=
  forallb (fun p => forallb (fun q => (snd p <? fst q)%N || (snd q <? fst p)%N) b) a.
Lemma apart_spec : forall a b c, apart a b = true -> in_class a c = true -> in_class b c = true -> False.
Proof.
  intros a b c H Ha Hb. unfold in_class in *. apply existsb_exists in Ha as (p & Hp & Ep). apply existsb_exists in Hb as (q & Hq & Eq).
  unfold apart in H. rewrite forallb_forall in H. specialize (H p Hp). rewrite forallb_forall in H. specialize (H q Hq).
  unfold in_range in *. apply andb_true_iff in Ep as [E1 E2], Eq as [E3 E4]. apply N.leb_le in E1, E2, E3, E4.
  apply orb_true_iff in H as [H|H]; apply N.ltb_lt in H; lia.
Qed.

Definition NAME_REGEXES : list regex := [TWIG_NAME_REGEX; HTML_TAG_NAME_REGEX; HTML_ATTRIBUTE_NAME_REGEX].
(** An entry of the lexer's table for a kind of [PUNCT] describes no name. *)
Definition entry_ok (e : pattern * kind) : bool :=
  negb (mem_kind (snd e) PUNCT) ||
  match fst e with
  | PLit l => forallb (fun r => negb (rfull r (txt l))) NAME_REGEXES
  | PRe r => forallb (fun n => apart (first r) (first n)) NAME_REGEXES
  | PLitCI _ => false
  end.
Lemma entries_ok : forallb entry_ok lex_table = true.
Proof. vm_compute. reflexivity. Qed.

Lemma lex_tok_ok : forall src, Forall tok_ok (lex src).
Proof.
  intros src. apply Forall_forall. intros t Hin Hk. apply in_split in Hin as (pre & post & E).
  destruct (PropLexer.C09_longest_match _ _ _ _ E) as [(Hu & _)|(p & k & w & (_ & Hd & _ & t1 & t2 & Et & _) & Hw & Hc)].
  - exfalso. rewrite Hu in Hk. vm_compute in Hk. discriminate Hk.
  - assert (Hkw : tk_kind t = k /\ tk_text t = w).
    { destruct Hc as [(_ & _ & -> & ->)|[[-> [[E1 ->]|[E1 ->]]]|[-> [[E1 ->]|[E1 ->]]]]]; auto;
        exfalso; rewrite E1 in Hk; vm_compute in Hk; discriminate Hk. }
    destruct Hkw as [Ek Ew]. rewrite Ew. rewrite Ek in Hk. pose proof entries_ok as F. rewrite forallb_forall in F. specialize (F (p, k)). rewrite Et in F.
    specialize (F (in_elt _ _ _)). unfold entry_ok in F. cbn [fst snd] in F. rewrite Hk in F. cbn [negb orb] in F.
    assert (X : forall r, In r NAME_REGEXES -> rfull r w = false).
    { intros r Hr. destruct p as [l|l|q]; [|discriminate F|]; rewrite forallb_forall in F; specialize (F r Hr); cbn [PropLexer.describes] in Hd.
      - subst w. now apply negb_true_iff.
      - apply not_true_is_false. intros B. apply rfull_spec in B. destruct w as [|c w]; [now apply Hw|].
        exact (apart_spec _ _ c F (first_spec _ _ Hd _ _ eq_refl) (first_spec _ _ B _ _ eq_refl)). }
    repeat split; apply X; [left|right; left|right; right; left]; reflexivity.
Qed.

Lemma lex_contiguous : forall src, contiguous (lex src).
Proof.
  intros src. destruct (PropLexer.C01_lex_lossless src) as (_ & _ & A). revert A. generalize (lex src) 0 (blen src). intros l a b A.
  induction A as [a|a t ts b H1 H2 H3 H4 IH]; cbn [contiguous]; [exact I|]. split; [lia|]. split; [|exact IH].
  destruct ts as [|u ts]; [exact I|]. now inversion H4.
Qed.
Lemma lex_lexed : forall src, lexed (lex src).
Proof. intros src. split; [apply lex_contiguous|apply lex_tok_ok]. Qed.

(** Building the tree panics with panics of its own only. *)
Definition sinking (q : panic) : Prop := q = PSink \/ q = PBuilder.
Lemma s_follow_panics : forall fuel idx fp es q, s_follow fuel idx fp es = Panicked q -> sinking q.
Proof.
  induction fuel as [|fuel IH]; intros idx [d|] es q H; cbn [s_follow] in H; try discriminate H; try (injection H as <-; now left).
  destruct (nth_error es (idx + d)) as [[k fp'| | | | |]|]; try (injection H as <-; now left).
  destruct (s_follow fuel _ fp' _) as [r|p|] eqn:E; cbn [rbind] in H; try discriminate H. injection H as <-. eauto.
Qed.
Lemma s_loop_panics : forall n es toks b q, s_loop n es toks b = Panicked q -> sinking q.
Proof.
  induction n as [|n IH]; intros [|e es] toks b q H; cbn [s_loop] in H; try discriminate H.
  destruct (if match e with EToken _ => true | ENextN _ _ => true | _ => false end || match n with 0 => true | _ => false end then s_trivia toks b else (toks, b))
    as [toks' b'].
  destruct e as [k fp|k|m k| | |].
  - destruct (s_follow _ 0 fp _) as [r|p|] eqn:E; cbn [rbind] in H; try discriminate H; [eauto|]. injection H as <-. eapply s_follow_panics. exact E.
  - destruct toks' as [|t ts]; [injection H as <-; now left|eauto].
  - destruct (Nat.leb m (length toks')); [eauto|]. injection H as <-. now left.
  - unfold b_finish_node in H. destruct (b_open b') as [|[k cs] fs]; cbn [rbind] in H; [injection H as <-; now right|eauto].
  - destruct (s_trivia toks' b') as [ts b2]. eauto.
  - eauto.
Qed.
Lemma sink_panics : forall toks es q, sink toks es = Panicked q -> sinking q.
Proof.
  intros toks es q H. unfold sink in H. destruct (s_loop _ es toks _) as [[ts b]|p|] eqn:E; cbn [rbind fst snd] in H; try discriminate H.
  - destruct ts as [|t ts]; [|injection H as <-; now left]. unfold b_finish in H. destruct (b_open b); [|injection H as <-; now right].
    destruct (b_base b) as [|[k cs|k w] [|? ?]]; try discriminate H; injection H as <-; now right.
  - injection H as <-. eapply s_loop_panics. exact E.
Qed.

(** * C61 *)

Theorem C61_well_formed_templates_are_accepted : forall dbg src,
  template (nontriv (lex src)) -> exists t, parse_src dbg src = OK (t, []).
Proof.
  intros dbg src H.
  assert (G : good (nontriv (lex src)) (c_init (lex src))).
  { split; [reflexivity|]. split; [apply lex_lexed|]. now exists []. }
  pose proof (a_root dbg (parse_fuel (lex src)) _ H (parse_fuel (lex src)) _ (le_n _) G) as R.
  pose proof (PropParser.C03_never_crashes_partial dbg src) as C. unfold parse_src, parse_tokens, parser_parse in *. unfold post in R.
  destruct (run _ _ root _) as [[m s]|q|]; cbn [rbind fst snd] in *.
  - destruct R as (l & _ & (_ & E & _) & _). cbn [c_init c_errs] in E. rewrite E in *. destruct (c_open s); cbn [rbind fst snd] in *.
    + destruct (sink _ _) as [t|q|] eqn:S; cbn [rbind] in *; [now exists t|..].
      * exfalso. apply sink_panics in S. destruct C as [[r C]|[C|[C|[C|[_ C]]]]]; try discriminate C; injection C as ->; destruct S; discriminate.
      * destruct C as [[r C]|[C|[C|[C|[_ C]]]]]; discriminate C.
    + destruct C as [[r C]|[C|[C|[C|[_ C]]]]]; discriminate C.
  - exfalso. destruct C as [[r C]|[C|[C|[C|[_ C]]]]]; try discriminate C; injection C as ->; destruct R as [R|[R|[R|R]]]; discriminate R.
  - exfalso. destruct C as [[r C]|[C|[C|[C|[_ C]]]]]; discriminate C.
Qed.

(** A template that meets the hypothesis: an element with a Twig condition in an attribute
    value, an output with a call, a filter, a string with interpolation and a conditional, a
    loop with an else part, a void element, a comment and a script. *)
Definition sample : text := txt
"<div class=""a {% if x %}b{% endif %}"" :id=c {{ d }}>
  {{ f(a.b[1:], k = 'q')|e ?? ""x#{y}"" ? -1 : {z: 2} }} text
  {% for k, v in l %}<br>{% else %}{# none #}{% endfor %}
</div>
<script>if (a < {{ b }}) {}</script>"%string.

Local Definition T : list token := Eval vm_compute in nontriv (lex sample).
(** The token at [i]; [n] tokens from [i] on. *)
Local Definition t (i : nat) : token := nth i T (mkTok TK_UNKNOWN [] 0 0).
Local Definition sl (i n : nat) : list token := firstn n (skipn i T).
Local Ltac k := vm_compute; repeat (first [left; reflexivity|right]).
Local Ltac nk := let H := fresh in intros H; vm_compute in H; repeat (destruct H as [H|H]; [discriminate H|]); destruct H.
Local Ltac named_ := split; [vm_compute; discriminate|]; do 2 eexists; split; [vm_compute; reflexivity|]; unfold name_start, letter, digit; split; [lia|repeat constructor; lia].
Local Ltac var_ := split; [named_|nk].
Local Ltac plain_ i := apply (item_plain _ (t i)); unfold plain; nk.
Local Ltac tag_ o k_ c := exists (t o), (t k_), (t c); split; [reflexivity|split; [k|split; k]].

Lemma an_operand : forall m, operand m -> expr true m.
Proof. intros m H. rewrite <- (app_nil_r m), <- (app_nil_r m), <- app_assoc. exact (expr_intro _ m [] [] H ops_nil cond_none). Qed.
Lemma a_primary : forall m, primary m -> operand m.
Proof. intros m H. rewrite <- (app_nil_r m). exact (operand_primary m [] H postfix_nil). Qed.
Lemma a_variable : forall t, variable t -> expr true [t].
Proof. intros u H. apply an_operand, a_primary. now constructor. Qed.

Local Lemma sample_output : var_statement (sl 23 37).
Proof.
  exists (t 23), true, (sl 24 35), (t 59). split; [reflexivity|]. split; [k|]. split; [|k].
  apply (expr_intro true (sl 24 18) (sl 42 8) (sl 50 9)).
  - apply (operand_primary (sl 24 16) (sl 40 2)).
    + apply (primary_call (t 24) (sl 25 15)); [left; var_|]. apply (call_intro (t 25) (sl 26 13) (t 39)); [k| |k].
      apply (args_cons (sl 26 7) (t 33) (sl 34 5)); [|k|].
      * apply (arg_expr true). apply an_operand. apply (operand_primary (sl 26 1) (sl 27 6)); [apply (primary_variable (t 26)); var_|].
        apply (postfix_dot (t 27) (t 28) (sl 29 4)); [k|left; named_|].
        apply (postfix_slice_from (t 29) (sl 30 1) (t 31) (t 32) []); [k| |k|k|constructor].
        apply an_operand, a_primary. apply (primary_literal (t 30)). k.
      * apply args_one. apply (arg_named (t 34) (t 35) true (sl 36 3)); [k|k|]. apply an_operand, a_primary. apply primary_string.
        apply (str_single true (t 36) (sl 37 1) (t 38)); [k| |k]. apply (chars_token _ _ (t 37) []); [nk|nk|nk|constructor].
    + apply (postfix_filter (sl 40 2) []); [|constructor]. apply (filter_plain (t 40) (t 41)); [k|named_].
  - apply (ops_binary (t 42) (sl 43 7) []); [k| |constructor]. apply a_primary, primary_string. apply (str_double true (t 43) (sl 44 5) (t 49)); [k| |k].
    apply (chars_token _ _ (t 44) (sl 45 4)); [nk|nk|nk|]. apply (chars_interpolation _ (t 45) (t 46) true (sl 47 1) (t 48) []); [k|k| |k|constructor].
    apply (a_variable (t 47)). var_.
  - apply (cond_full (t 50) (sl 51 2) (t 53) true (sl 54 5)); [k| |k|].
    + apply an_operand. apply (operand_unary (t 51) (sl 52 1)); [k|]. apply a_primary. apply (primary_literal (t 52)). k.
    + apply an_operand, a_primary, primary_hash. apply (hash_intro (t 54) (sl 55 3) (t 58)); [k| |k]. apply pairs_one.
      apply (pair_full (sl 55 1) (t 56) true (sl 57 1)); [apply (key_name (t 55)); named_|k|].
      apply an_operand, a_primary. apply (primary_literal (t 57)). k.
Qed.
Local Lemma sample_attributes : content InAttributes (sl 2 20).
Proof.
  apply (content_cons _ (sl 2 13) (sl 15 7)); [|apply (content_cons _ (sl 15 4) (sl 19 3)); [|apply (content_cons _ (sl 19 3) []); [|constructor]]].
  - apply (item_attribute (sl 2 1) (sl 3 12)).
    + apply (attribute_name_one (t 2)); [vm_compute; discriminate|]. do 2 eexists. unfold word_char, letter, digit.
      split; [|split; [|left; vm_compute; reflexivity]]; [repeat constructor; lia|lia].
    + apply (value_double (t 3) (t 4) (sl 5 9) (t 14)); [k|k| |k]. apply (content_cons _ (sl 5 1) (sl 6 8)); [plain_ 5|].
      apply (content_cons _ (sl 6 8) []); [|constructor]. apply item_statement, statement_block.
      apply (block_if _ true (sl 8 1) (sl 6 4) (sl 10 4)); [apply (a_variable (t 8)); var_|tag_ 6 7 9|].
      apply (branches_end _ (sl 10 1) (sl 11 3)); [|tag_ 11 12 13]. apply (content_cons _ (sl 10 1) []); [plain_ 10|constructor].
  - apply (item_attribute (sl 15 2) (sl 17 2)).
    + apply (attribute_name_colon (t 15) (t 16)); [k|reflexivity|]. do 2 eexists. unfold word_char, letter, digit.
      split; [|split; [|right; eexists; split; [|vm_compute; reflexivity]; left; reflexivity]]; [repeat constructor; lia|lia].
    + apply (value_word (t 17) (t 18)); k.
  - apply (item_attribute_var (sl 19 3) []); [|constructor]. exists (t 19), true, (sl 20 1), (t 21). split; [reflexivity|]. split; [k|]. split; [|k].
    apply (a_variable (t 20)). var_.
Qed.
Local Lemma sample_loop : block InBody (sl 61 20).
Proof.
  apply (block_for_else _ (sl 63 5) (sl 61 8) (sl 69 3) (sl 72 3) (sl 75 3) (sl 78 3)); [|tag_ 61 62 68| |tag_ 72 73 74| |tag_ 78 79 80].
  - exists (sl 63 3), (t 66), true, (sl 67 1). split; [reflexivity|]. split; [right; exists (t 63), (t 64), (t 65); split; [reflexivity|]; split; [named_|split; [k|named_]]|].
    split; [k|]. apply (a_variable (t 67)). var_.
  - apply (content_cons _ (sl 69 3) []); [|constructor]. apply (item_void (t 69) (t 70) [] (t 71)); [k|reflexivity| |constructor|].
    + right. split; [vm_compute; discriminate|]. do 2 eexists. unfold letter, digit. split; [vm_compute; reflexivity|]. split; [lia|repeat constructor; lia].
    + left. split; [k|]. vm_compute. do 2 right. left. reflexivity.
  - apply (content_cons _ (sl 75 3) []); [|constructor]. apply item_statement, statement_comment. exists (t 75), (sl 76 1), (t 77).
    split; [reflexivity|]. split; [k|]. split; [|k]. left. split; [constructor; [nk|constructor]|]. intros u l E. vm_compute in E. injection E as <- <-. nk.
Qed.
Example C61_case : template (nontriv (lex sample)).
Proof.
  change (nontriv (lex sample)) with T. unfold template.
  apply (content_cons _ (sl 0 84) (sl 84 16)); [|apply (content_cons _ (sl 84 16) []); [|constructor]].
  - apply (item_element (t 0) (t 1) (sl 2 20) (t 22) (sl 23 58) (t 81) (t 82) (t 83)); [k|reflexivity| |apply sample_attributes|k|nk|nk| |k|reflexivity|reflexivity|k].
    + right. split; [vm_compute; discriminate|]. do 2 eexists. unfold letter, digit. split; [vm_compute; reflexivity|]. split; [lia|repeat constructor; lia].
    + apply (content_cons _ (sl 23 37) (sl 60 21)); [apply item_statement, statement_var; [discriminate|apply sample_output]|].
      apply (content_cons _ (sl 60 1) (sl 61 20)); [plain_ 60|]. apply (content_cons _ (sl 61 20) []); [|constructor]. apply item_statement, statement_block, sample_loop.
  - apply (item_raw_element (t 84) (t 85) [] (t 86) (sl 87 10) (t 97) (t 98) (t 99)); [k|reflexivity| |constructor|k|nk|vm_compute; left; reflexivity| |k|reflexivity|reflexivity|k].
    + right. split; [vm_compute; discriminate|]. do 2 eexists. unfold letter, digit. split; [vm_compute; reflexivity|]. split; [lia|repeat constructor; lia].
    + apply (raw_plain _ (t 87) (sl 88 9)); [nk|nk|]. apply (raw_plain _ (t 88) (sl 89 8)); [nk|nk|]. apply (raw_plain _ (t 89) (sl 90 7)); [nk|nk|].
      apply (raw_plain _ (t 90) (sl 91 6)); [nk|nk|]. apply (raw_statement _ (sl 91 3) (sl 94 3)).
      * apply statement_var; [discriminate|]. exists (t 91), true, (sl 92 1), (t 93). split; [reflexivity|]. split; [k|]. split; [|k]. apply (a_variable (t 92)). var_.
      * apply (raw_plain _ (t 94) (sl 95 2)); [nk|nk|]. apply (raw_plain _ (t 95) (sl 96 1)); [nk|nk|]. apply (raw_plain _ (t 96) []); [nk|nk|constructor].
Qed.
(** The parser accepts it. *)
Example C61_case_parsed : exists r, parse_src true sample = OK (r, []).
Proof. apply C61_well_formed_templates_are_accepted, C61_case. Qed.

(** Outside of the grammar: these are reported although Twig or HTML allow them. *)
Definition reported (src : string) : bool :=
  match parse_src false (txt src) with OK (_, []) => false | OK _ => true | _ => false end.
Example C61_reported : forallb reported
  ["{{ '\\' }}"; "{{ '#{a}' }}"; "{{ x-1 }}"; "{{ {...a} }}"; "{% verbatim %}{{ a b }}{% endverbatim %}";
   "<a @click.prevent='b'></a>"; "<a b='1 > 2'></a>"; "<td colspan=2></td>"; "<a href=/x></a>"; "<p>a</P>"; "<p>a <b</p>"]%string = true.
Proof. vm_compute. reflexivity. Qed.

Print Assumptions C61_well_formed_templates_are_accepted.
