(** Property theorems about the typed view of the tree: C62. *)
From Coq Require Import NArith String Bool Arith Lia List.
Import ListNotations.
From Verif Require Import Text Kind Regex Lexer LexerProofs ParserApi Machine TreeSpec.
From Verif Require Schema PropShape PropLexer PropParser.
From Verif Require Import Red Typed TypedRest Rule Rules Check RedFacts WalkSpec PropRun PropOff Found FoundShape PropFound2 PropFound3 PropFound4.
Local Notation length := List.length (only parsing).
Local Open Scope list_scope.

(** * Helpers *)
Ltac look := repeat match goal with
  | H : a_node ?k ?x |- context [node_of ?k ?x] => rewrite (node_of_true k x H)
  | H : a_node ?k' ?x |- context [node_of ?k ?x] => rewrite (node_of_false k k' x H ltac:(discriminate))
  | H : a_token ?k' ?x |- context [node_of ?k ?x] => rewrite (node_of_token k k' x H)
  | H : a_token ?k ?x |- context [token_of ?k ?x] => rewrite (token_of_true k x H)
  | H : a_token ?k' ?x |- context [token_of ?k ?x] => rewrite (token_of_false k k' x H ltac:(discriminate))
  | H : a_node ?k' ?x |- context [token_of ?k ?x] => rewrite (token_of_node k k' x H)
  end.
Ltac see E := rewrite ?support_child_parts, ?support_children_parts, ?support_token_parts by reflexivity; rewrite ?E; cbn [find filter nth_error];
  repeat (progress look; cbn [find filter nth_error]).

(** A word or the name of a component. *)
Definition a_name (e : elem) : Prop := a_token TK_WORD e \/ a_token TK_TWIG_COMPONENT_NAME e.
Definition name_of (e : elem) : bool := token_of TK_WORD e || token_of TK_TWIG_COMPONENT_NAME e.
Lemma tag_name_parts e : starting_tag_name e = find name_of (parts e).
Proof.
  unfold starting_tag_name, child_tokens, parts. rewrite (find_filter_eq name_of).
  - rewrite find_filter. induction (children_with_tokens e) as [|x l IH]; [reflexivity|]. cbn [find].
    assert (Q : negb (is_node (el_tree x)) && (kind_eqb (el_kind x) TK_WORD || kind_eqb (el_kind x) TK_TWIG_COMPONENT_NAME) = name_of x).
    { unfold name_of, token_of. destruct (is_node (el_tree x)); reflexivity. }
    rewrite Q, IH. reflexivity.
  - intros x H. apply orb_true_iff in H as [H|H]; eapply token_counts; try exact H; reflexivity.
Qed.
Lemma name_of_true e : a_name e -> name_of e = true.
Proof. unfold name_of. intros [H|H]; rewrite (token_of_true _ _ H); rewrite ?orb_true_r; reflexivity. Qed.
Lemma name_of_node k e : a_node k e -> name_of e = false.
Proof. intros H. unfold name_of. now rewrite !(token_of_node _ _ _ H). Qed.
Lemma name_of_other k e : a_token k e -> k <> TK_WORD -> k <> TK_TWIG_COMPONENT_NAME -> name_of e = false.
Proof. intros H N1 N2. unfold name_of. now rewrite (token_of_false _ _ _ H N1), (token_of_false _ _ _ H N2). Qed.
Lemma part_name_text e : Schema.part_name (el_tree e) = option_map el_text (starting_tag_name e).
Proof.
  unfold Schema.part_name, starting_tag_name, child_tokens. rewrite <- children_with_tokens_trees, find_filter.
  induction (children_with_tokens e) as [|x l IH]; [reflexivity|]. cbn [map Schema.first_name find]. unfold el_kind.
  destruct (el_tree x) as [k s|k cs] eqn:X; cbn [is_node negb andb tree_kind]; [|exact IH].
  unfold Schema.is_name. destruct (kind_eqb k TK_WORD || kind_eqb k TK_TWIG_COMPONENT_NAME); [|exact IH].
  cbn [option_map]. unfold el_text. now rewrite X, tree_text_leaf.
Qed.
Lemma nodes_parts e : Schema.nodes (children (el_tree e)) = map el_tree (filter (fun c => is_node (el_tree c)) (parts e)).
Proof.
  unfold parts, Schema.nodes. rewrite <- children_with_tokens_trees. induction (children_with_tokens e) as [|x l IH]; [reflexivity|].
  cbn [map filter]. destruct (el_tree x) as [k s|k cs] eqn:X; cbn [counts].
  - destruct (negb (Schema.junk k)); cbn [filter]; rewrite ?X; cbn [is_node]; exact IH.
  - cbn [filter]. rewrite X. cbn [is_node map]. now rewrite IH, X.
Qed.
Lemma has_part s e : Schema.has s (el_tree e) <-> exists x, In x (parts e) /\ is_sym s x.
Proof.
  unfold Schema.has. split.
  - intros H. induction (parts_content e) as [|s' x l l' Hx _ IH]; [destruct H|]. destruct H as [<-|H]; [exists x; split; [now left|exact Hx]|].
    destruct (IH H) as (y & Hy & Q). exists y. split; [now right|exact Q].
  - intros (x & Hx & Q). induction (parts_content e) as [|s' y l l' Hy _ IH]; [destruct Hx|]. destruct Hx as [->|Hx]; [|right; now apply IH].
    left. destruct s, s'; destruct Q as (z & Q), Hy as (z' & Hy); rewrite Q in Hy; try discriminate; injection Hy as -> _; reflexivity.
Qed.
Lemma cast_up k e x : In x (parts e) -> a_node k e -> (let? p := parent x in cast k p) = Some e.
Proof. intros H Hk. rewrite (part_parent _ _ H). cbn [obind]. now apply cast_node. Qed.

Ltac shape HP He Hk :=
  let P := fresh "P" in let C := fresh "C" in let l := fresh "l" in
  match type of Hk with a_node ?k ?e =>
    pose proof (parts_content e) as P;
    pose proof (node_sem _ _ _ HP k e _ He Hk ltac:(discriminate) eq_refl) as C; models;
    revert P C; generalize (Schema.content (children (el_tree e))); intros l P C; sem_all; cbn [app] in P; parts_inv;
    repeat match goal with E : _ = parts e |- _ => symmetry in E end
  end.
Ltac member E := rewrite E; cbn [In]; tauto.

(** * C62: the typed view of an error-free template *)

Section Accessors.
  Context (dbg : bool) (src : text) (t : tree) (HP : parse_src dbg src = OK (t, [])).

  (** ** Blocks *)

  (** The name of a starting tag of a block is the word behind the keyword. *)
  Lemma starting_block_view s : In s (elements t) -> a_node TWIG_STARTING_BLOCK s ->
    exists o k n r, parts s = o :: k :: n :: r /\ a_token TK_BLOCK k /\ a_token TK_WORD n /\ starting_block_name s = Some n.
  Proof.
    intros He Hk. unfold starting_block_name. shape HP He Hk; match goal with E : parts s = _ |- _ => do 4 eexists; split; [reflexivity|see E] end; repeat (split; [assumption|]); reflexivity.
  Qed.
  Theorem C62_blocks : forall e, In e (elements t) -> a_node TWIG_BLOCK e ->
    exists s o k n r, In s (parts e) /\ a_node TWIG_STARTING_BLOCK s /\ parts s = o :: k :: n :: r /\ a_token TK_BLOCK k /\ a_token TK_WORD n /\
      starting_block e = Some s /\ twig_block s = Some e /\ starting_block_name s = Some n /\ block_name e = Some n /\
      ((parts e = [s] /\ body e = None /\ ending_block e = None) \/
       (exists b x, parts e = [s; b; x] /\ a_node BODY b /\ a_node TWIG_ENDING_BLOCK x /\
          body e = Some b /\ ending_block e = Some x /\ twig_block x = Some e)).
  Proof.
    intros e He Hk. unfold block_name, starting_block, body, ending_block, twig_block. shape HP He Hk; match goal with E : parts e = ?s :: _ |- _ =>
      assert (Is : In s (parts e)) by (rewrite E; now left); rewrite <- ?E;
      destruct (starting_block_view s (part_element t e s He Is) ltac:(assumption)) as (o & k & n & r & Es & Kk & Kn & En);
      exists s, o, k, n, r; do 5 (split; [assumption|]); see E; cbn [obind]; do 4 (split; [auto; now apply cast_up|]);
      rewrite ?(cast_up TWIG_BLOCK e s Is Hk) end.
    - left. auto.
    - right. match goal with E : parts e = [_; ?b; ?x] |- _ => exists b, x; rewrite (cast_up TWIG_BLOCK e x) by (member E || exact Hk) end. auto 8.
  Qed.

  (** ** Elements *)
  Definition self_closed (s : elem) : Prop := exists c, In c (parts s) /\ a_token TK_SLASH_GREATER_THAN c.
  Definition void_name (n : elem) : Prop := In (map to_lower_ascii (el_text n)) Schema.void_elements.

  Lemma no_component n : a_token TK_WORD n -> false = true <-> a_token TK_TWIG_COMPONENT_NAME n.
  Proof. intros (y & H). split; [discriminate|]. intros (x & E). rewrite H in E. discriminate. Qed.
  Lemma yes_component n : a_token TK_TWIG_COMPONENT_NAME n -> true = true <-> a_token TK_TWIG_COMPONENT_NAME n.
  Proof. tauto. Qed.
  Lemma starting_tag_view s : In s (elements t) -> a_node HTML_STARTING_TAG s ->
    exists o n l c, parts s = [o; n; l; c] /\ a_name n /\ a_node HTML_ATTRIBUTE_LIST l /\
      starting_tag_name s = Some n /\ (is_twig_component s = true <-> a_token TK_TWIG_COMPONENT_NAME n) /\
      starting_tag_attributes s = filter (node_of HTML_ATTRIBUTE) (parts l).
  Proof.
    intros He Hk. unfold starting_tag_attributes, is_twig_component. rewrite tag_name_parts.
    shape HP He Hk; match goal with E : parts s = [?o; ?n; ?l; ?c] |- _ => exists o, n, l, c; split; [reflexivity|];
      assert (N : a_name n) by (now left + now right); split; [exact N|]; split; [assumption|]; split;
      [cbn [find]; rewrite (name_of_other TK_LESS_THAN o) by (assumption || discriminate); now rewrite (name_of_true n N)|];
      split; see E; (now apply support_children_parts) || (now apply no_component) || now apply yes_component end.
  Qed.
  Lemma ending_tag_view x : In x (elements t) -> a_node HTML_ENDING_TAG x ->
    exists o n c, parts x = [o; n; c] /\ a_name n /\ ending_tag_name x = Some n /\ (is_twig_component x = true <-> a_token TK_TWIG_COMPONENT_NAME n).
  Proof.
    intros He Hk. change (ending_tag_name x) with (starting_tag_name x). unfold is_twig_component. rewrite tag_name_parts.
    shape HP He Hk; match goal with E : parts x = [?o; ?n; ?c] |- _ => exists o, n, c; split; [reflexivity|];
      assert (N : a_name n) by (now left + now right); split; [exact N|]; split;
      [cbn [find]; rewrite (name_of_other TK_LESS_THAN_SLASH o) by (assumption || discriminate); now rewrite (name_of_true n N)|];
      see E; (now apply no_component) || now apply yes_component end.
  Qed.

  Theorem C62_elements : forall e, In e (elements t) -> a_node HTML_TAG e ->
    exists s o n l c, In s (parts e) /\ a_node HTML_STARTING_TAG s /\ parts s = [o; n; l; c] /\ a_name n /\ a_node HTML_ATTRIBUTE_LIST l /\
      starting_tag e = Some s /\ html_tag s = Some e /\ starting_tag_name s = Some n /\ html_tag_name e = Some n /\
      (html_tag_is_twig_component e = true <-> a_token TK_TWIG_COMPONENT_NAME n) /\
      attributes e = filter (node_of HTML_ATTRIBUTE) (parts l) /\
      (is_self_closing e = true <-> self_closed s \/ void_name n) /\
      ((parts e = [s] /\ is_self_closing e = true /\ body e = None /\ ending_tag e = None) \/
       (exists b x m, parts e = [s; b; x] /\ a_node BODY b /\ a_node HTML_ENDING_TAG x /\ In m (parts x) /\ a_name m /\
          is_self_closing e = false /\ body e = Some b /\ ending_tag e = Some x /\ html_tag x = Some e /\
          ending_tag_name x = Some m /\ el_text m = el_text n)).
  Proof.
    intros e He Hk. destruct (node_wf _ _ _ HP _ _ He Hk ltac:(discriminate)) as [_ A]. cbn [Schema.agrees] in A. rewrite nodes_parts in A.
    unfold html_tag_name, html_tag_is_twig_component, attributes, starting_tag, body, is_self_closing, ending_tag, html_tag.
    shape HP He Hk; match goal with E : parts e = ?s :: _ |- _ =>
      assert (Is : In s (parts e)) by (rewrite E; now left); rewrite <- ?E; rewrite E in A;
      destruct (starting_tag_view s (part_element t e s He Is) ltac:(assumption)) as (o & n & l & c & Es & Nn & Kl & En & Ec & Ea);
      exists s, o, n, l, c; do 5 (split; [assumption|]); see E; cbn [obind]; rewrite ?(cast_up HTML_TAG e s Is Hk);
      split; [reflexivity|]; split; [reflexivity|]; do 4 (split; [assumption|]);
      assert (Ks : a_node HTML_STARTING_TAG s) by assumption end.
    - cbn [filter] in A. assert (Ns : is_node (el_tree y) = true) by (destruct Ks as (? & ->); reflexivity). rewrite Ns in A. cbn [map] in A.
      rewrite part_name_text, En in A. destruct A as (w & [= <-] & A). split; [|left; auto]. split; [intros _|reflexivity].
      destruct A as [A|A]; [left|right; exact A]. apply has_part in A as (c' & Hc & A). exists c'. auto.
    - assert (Ix : In y1 (parts e)) by (match goal with E : parts e = _ |- _ => member E end).
      destruct (ending_tag_view y1 (part_element t e y1 He Ix) ltac:(assumption)) as (o' & m & c' & Ex & Nm & Em & _).
      cbn [filter] in A. assert (Ns : is_node (el_tree y) = true) by (destruct Ks as (? & ->); reflexivity).
      assert (Nb : is_node (el_tree y0) = true) by (match goal with H : a_node BODY y0 |- _ => destruct H as (? & ->); reflexivity end).
      assert (Nx : is_node (el_tree y1) = true) by (match goal with H : a_node HTML_ENDING_TAG y1 |- _ => destruct H as (? & ->); reflexivity end).
      rewrite Ns, Nb, Nx in A. cbn [map] in A. rewrite !part_name_text, En in A. unfold ending_tag_name in Em. fold (starting_tag_name y1) in Em. rewrite Em in A.
      destruct A as (w & [= <-] & [= A] & A1 & A2). split.
      + split; [discriminate|]. intros [(c1 & G1 & G2)|H]; [|destruct (A2 H)]. destruct A1. apply has_part. exists c1. auto.
      + right. exists y0, y1, m. rewrite (cast_up HTML_TAG e y1 Ix Hk). do 9 (split; [auto; rewrite ?Ex; cbn [In]; tauto|]). split; [exact Em|exact A].
  Qed.

  (** ** Attributes *)
  Theorem C62_attributes : forall a, In a (elements t) -> a_node HTML_ATTRIBUTE a ->
    exists n r, parts a = n :: r /\
      ((a_token TK_WORD n /\ attribute_name a = Some n) \/ (a_node TWIG_VAR n /\ attribute_name a = None)) /\
      ((r = [] /\ attribute_value a = None) \/
       (exists q v, r = [q; v] /\ a_token TK_EQUAL q /\ a_node HTML_STRING v /\ attribute_value a = Some v)).
  Proof.
    intros a He Hk. unfold attribute_name, attribute_value.
    shape HP He Hk; match goal with E : parts a = ?n :: ?r |- _ => exists n, r; split; [reflexivity|]; see E end;
    (split; [auto|]); (left; split; reflexivity) || (right; do 2 eexists; eauto).
  Qed.
  (** The tag of an attribute, for the attributes that belong to the list of a tag. *)
  Theorem C62_attribute_tags_partial : forall a l s, In s (elements t) -> a_node HTML_STARTING_TAG s -> In l (parts s) -> In a (parts l) -> attribute_html_tag a = Some s.
  Proof.
    intros a l s He Hk Hl Ha. unfold attribute_html_tag. rewrite (part_parent _ _ Ha). cbn [obind]. rewrite (part_parent _ _ Hl). cbn [obind].
    now apply cast_node.
  Qed.

  (** ** Expressions *)
  Theorem C62_binary_operands_partial : forall e, In e (elements t) -> a_node TWIG_BINARY_EXPRESSION e ->
    exists l op rest, parts e = l :: op :: rest /\ (exists k, a_token k op /\ In k Schema.binary_operators) /\ binary_operator e = Some op /\
      ((a_node TWIG_EXPRESSION l /\ lhs_expression e = Some l /\ rhs_expression e = hd_error rest) \/
       (a_node TWIG_BINARY_EXPRESSION l /\ lhs_expression e = hd_error rest /\ rhs_expression e = None)).
  Proof.
    intros e He Hk. destruct (binary_shape dbg src t HP e He Hk) as (l & op & rest & E & L & (k & Ko & Io) & R & B).
    exists l, op, rest. split; [exact E|]. split; [eauto|]. split; [exact B|]. unfold lhs_expression, rhs_expression.
    destruct L as [L|L]; [left|right]; (split; [exact L|]); destruct R as [-> |(r & -> & R)]; see E; split; reflexivity.
  Qed.
  Theorem C62_parts : forall e, In e (elements t) ->
    (a_node TWIG_VAR e -> exists o x c, parts e = [o; x; c] /\ a_node TWIG_EXPRESSION x /\ get_expression e = Some x) /\
    (a_node TWIG_EXTENDS e -> exists o k x c, parts e = [o; k; x; c] /\ a_token TK_EXTENDS k /\ extends_keyword e = Some k) /\
    (a_node TWIG_LITERAL_NAME e -> exists w, parts e = [w] /\ a_token TK_WORD w /\ literal_name e = Some w) /\
    (a_node TWIG_FILTER e -> exists l p r, parts e = [l; p; r] /\ a_token TK_SINGLE_PIPE p /\ filter_operand e = Some l /\ filter_filter e = Some r) /\
    (a_node TWIG_FUNCTION_CALL e -> exists f a, parts e = [f; a] /\ a_node TWIG_OPERAND f /\ a_node TWIG_ARGUMENTS a /\
       name_operand e = Some f /\ arguments e = Some a) /\
    (a_node TWIG_LITERAL_STRING e -> exists q i p, parts e = [q; i; p] /\ opening_quote e = Some q /\ twig_string_inner e = Some i /\ closing_quote e = Some p) /\
    (a_node HTML_STRING e -> exists i, html_string_inner e = Some i /\
       ((exists q p, parts e = [q; i; p] /\ opening_quote e = Some q /\ closing_quote e = Some p) \/
        (parts e = [i] /\ opening_quote e = None /\ closing_quote e = None))).
  Proof.
    intros e He. unfold get_expression, extends_keyword, literal_name, filter_operand, filter_filter, name_operand, arguments.
    split; [|split; [|split; [|split; [|split; [|split]]]]]; intros Hk.
    - shape HP He Hk; match goal with E : parts e = [?o; ?x; ?c] |- _ => exists o, x, c; see E; auto end.
    - shape HP He Hk; match goal with E : parts e = [?o; ?k; ?x; ?c] |- _ => exists o, k, x, c; see E; auto end.
    - shape HP He Hk; match goal with E : parts e = [?o] |- _ => exists o; see E; auto end.
    - shape HP He Hk; match goal with E : parts e = [?o; ?x; ?c] |- _ => exists o, x, c; see E; auto end.
    - shape HP He Hk; match goal with E : parts e = [?o; ?x] |- _ => exists o, x; see E; auto 8 end.
    - destruct (string_parts dbg src t HP e He Hk) as (q & i & p & k & E & _ & _ & _ & _ & H1 & H2 & H3 & _). exists q, i, p. auto.
    - destruct (html_string_parts dbg src t HP e He Hk) as (i & _ & [(q & p & k & E & _ & _ & _ & H1 & H2 & H3 & _)|(E & H1 & H2 & H3)]); exists i.
      + split; [exact H3|]. left. exists q, p. auto.
      + split; [exact H3|]. right. auto.
  Qed.
End Accessors.

(** ** White space control *)

(** What a delimiter asks for, by its text. *)
Definition opening_sign (s : text) : option trimming :=
  if existsb (text_eqb s) [txt "{%-"; txt "{{-"; txt "{#-"]%string then Some RemoveAll
  else if existsb (text_eqb s) [txt "{%~"; txt "{{~"; txt "{#~"]%string then Some RemoveExceptNewLines
  else None.
Definition closing_sign (s : text) : option trimming :=
  if existsb (text_eqb s) [txt "-%}"; txt "-}}"; txt "-#}"]%string then Some RemoveAll
  else if existsb (text_eqb s) [txt "~%}"; txt "~}}"; txt "~#}"]%string then Some RemoveExceptNewLines
  else None.
Definition solid (l : kind * text) : bool := negb (is_trivia (fst l)).
(** The first and the last token of a piece of the tree, white space apart. *)
Definition first_solid (t : tree) : option text := option_map snd (find solid (leaves t)).
Definition last_solid (t : tree) : option text := option_map snd (find solid (rev (leaves t))).

(** Signs by kind, as in the model. *)
Definition kind_leading (k : kind) : option trimming :=
  match k with
  | TK_CURLY_PERCENT_MINUS | TK_OPEN_CURLY_CURLY_MINUS | TK_OPEN_CURLY_HASHTAG_MINUS => Some RemoveAll
  | TK_CURLY_PERCENT_TILDE | TK_OPEN_CURLY_CURLY_TILDE | TK_OPEN_CURLY_HASHTAG_TILDE => Some RemoveExceptNewLines
  | _ => None
  end.
Definition kind_trailing (k : kind) : option trimming :=
  match k with
  | TK_MINUS_PERCENT_CURLY | TK_MINUS_CLOSE_CURLY_CURLY | TK_MINUS_HASHTAG_CLOSE_CURLY => Some RemoveAll
  | TK_TILDE_PERCENT_CURLY | TK_TILDE_CLOSE_CURLY_CURLY | TK_TILDE_HASHTAG_CLOSE_CURLY => Some RemoveExceptNewLines
  | _ => None
  end.
Definition openers : list kind :=
  [TK_CURLY_PERCENT; TK_CURLY_PERCENT_MINUS; TK_CURLY_PERCENT_TILDE; TK_OPEN_CURLY_CURLY; TK_OPEN_CURLY_CURLY_MINUS;
   TK_OPEN_CURLY_CURLY_TILDE; TK_OPEN_CURLY_HASHTAG; TK_OPEN_CURLY_HASHTAG_MINUS; TK_OPEN_CURLY_HASHTAG_TILDE].
Definition closers : list kind :=
  [TK_PERCENT_CURLY; TK_MINUS_PERCENT_CURLY; TK_TILDE_PERCENT_CURLY; TK_CLOSE_CURLY_CURLY; TK_MINUS_CLOSE_CURLY_CURLY;
   TK_TILDE_CLOSE_CURLY_CURLY; TK_HASHTAG_CLOSE_CURLY; TK_MINUS_HASHTAG_CLOSE_CURLY; TK_TILDE_HASHTAG_CLOSE_CURLY].
(** Everything with delimiters of its own. *)
Definition delimited : list kind := filter (fun k => negb (existsb (kind_eqb k) [TWIG_ASSIGNMENT; TWIG_OVERRIDE])) has_whitespace_control.

Definition tok_in (ks : list kind) (s : Schema.sym) : bool := match s with Schema.Tok k => existsb (kind_eqb k) ks | _ => false end.
Fixpoint starts_in (ks : list kind) (m : Schema.cm) : bool :=
  match m with
  | Schema.One ss => forallb (tok_in ks) ss
  | Schema.Seq a _ => starts_in ks a
  | Schema.Alt a b => starts_in ks a && starts_in ks b
  | _ => false
  end.
Fixpoint ends_in (ks : list kind) (m : Schema.cm) : bool :=
  match m with
  | Schema.One ss => forallb (tok_in ks) ss
  | Schema.Seq _ b => ends_in ks b
  | Schema.Alt a b => ends_in ks a && ends_in ks b
  | _ => false
  end.
Lemma tok_in_inv ks s : tok_in ks s = true -> exists k, s = Schema.Tok k /\ In k ks.
Proof.
  destruct s as [k|k]; cbn [tok_in]; [|discriminate]. intros H. apply existsb_exists in H as (x & Hx & E). apply kind_eqb_eq in E as <-. eauto.
Qed.
Lemma starts_sound ks : forall m l, starts_in ks m = true -> Schema.sem m l -> exists k r, l = Schema.Tok k :: r /\ In k ks.
Proof.
  induction m as [|ss| |a IHa b IHb|a IHa b IHb|a IHa]; intros l S H; cbn [starts_in] in S; cbn [Schema.sem] in H; try discriminate.
  - destruct H as (s & -> & Hs). rewrite forallb_forall in S. destruct (tok_in_inv _ _ (S _ Hs)) as (k & -> & Hk). eauto.
  - destruct H as (x & y & -> & Ha & _). destruct (IHa _ S Ha) as (k & r & -> & Hk). exists k, (r ++ y). auto.
  - apply andb_true_iff in S as [S1 S2]. destruct H as [H|H]; eauto.
Qed.
Lemma ends_sound ks : forall m l, ends_in ks m = true -> Schema.sem m l -> exists k r, l = r ++ [Schema.Tok k] /\ In k ks.
Proof.
  induction m as [|ss| |a IHa b IHb|a IHa b IHb|a IHa]; intros l S H; cbn [ends_in] in S; cbn [Schema.sem] in H; try discriminate.
  - destruct H as (s & -> & Hs). rewrite forallb_forall in S. destruct (tok_in_inv _ _ (S _ Hs)) as (k & -> & Hk). exists k, []. auto.
  - destruct H as (x & y & -> & _ & Hb). destruct (IHb _ S Hb) as (k & r & -> & Hk). exists k, (x ++ r). rewrite app_assoc. auto.
  - apply andb_true_iff in S as [S1 S2]. destruct H as [H|H]; eauto.
Qed.
Lemma delimited_models : forallb (fun k => match Schema.schema k with Some m => starts_in openers m && ends_in closers m | None => false end) delimited = true.
Proof. vm_compute. reflexivity. Qed.

(** The tokens directly below a node. *)
Definition own_tokens (cs : list tree) : list (kind * text) := flat_map (fun t => match t with Leaf k s => [(k, s)] | Node _ _ => [] end) cs.
Lemma non_trivia_own e : map (fun x => (el_kind x, el_text x)) (non_trivia_tokens e) = filter solid (own_tokens (children (el_tree e))).
Proof.
  unfold non_trivia_tokens, child_tokens. rewrite <- children_with_tokens_trees. induction (children_with_tokens e) as [|x l IH]; [reflexivity|].
  cbn [filter map flat_map own_tokens]. change (flat_map _ (map el_tree l)) with (own_tokens (map el_tree l)).
  destruct x as [[k s|k cs] off p]; cbn [el_tree is_node negb app]; [|exact IH]. cbn [filter].
  unfold solid at 1. cbn [fst]. change (el_kind (mkElem (Leaf k s) off p)) with k. destruct (negb (is_trivia k)); [|exact IH]. cbn [map]. rewrite IH. unfold el_text. cbn [el_tree]. rewrite tree_text_leaf. reflexivity.
Qed.
Lemma first_own k r : forall cs, Schema.content cs = Schema.Tok k :: r ->
  exists k1 s1, find solid (flat_map leaves cs) = Some (k1, s1) /\ hd_error (filter solid (own_tokens cs)) = Some (k1, s1) /\
    In (Leaf k1 s1) cs /\ (k1 = k \/ k1 = TK_UNKNOWN).
Proof.
  induction cs as [|[k1 s1|k1 cs1] cs IH]; intros H; [discriminate| |discriminate].
  cbn [flat_map leaves own_tokens app find filter]. change (flat_map _ cs) with (own_tokens cs) at 2. unfold Schema.content in H. cbn [flat_map Schema.symbol] in H.
  fold (Schema.content cs) in H. unfold Schema.junk in H. unfold solid at 1 3. cbn [fst]. destruct (is_trivia k1) eqn:T; cbn [orb negb app] in *.
  - destruct (IH H) as (k2 & s2 & H1 & H2 & H3 & H4). exists k2, s2. repeat split; auto. now right.
  - exists k1, s1. repeat split; auto; [now left|]. destruct (kind_eqb k1 TK_UNKNOWN) eqn:U; [right; now apply kind_eqb_eq|]. left. injection H as -> _. reflexivity.
Qed.

Lemma last_own k r : forall cs, Schema.content cs = r ++ [Schema.Tok k] ->
  exists k1 s1, find solid (rev (flat_map leaves cs)) = Some (k1, s1) /\ hd_error (rev (filter solid (own_tokens cs))) = Some (k1, s1) /\
    In (Leaf k1 s1) cs /\ (k1 = k \/ k1 = TK_UNKNOWN).
Proof.
  induction cs as [|x cs IH] using rev_ind; intros H; [destruct r; discriminate|].
  unfold Schema.content in H. rewrite flat_map_app in H. fold (Schema.content cs) in H. unfold own_tokens. rewrite !flat_map_app, filter_app, !rev_app_distr.
  change (flat_map _ cs) with (own_tokens cs) at 2. destruct x as [k1 s1|k1 cs1]; cbn [flat_map Schema.symbol app] in H.
  - cbn [flat_map leaves app rev find filter]. unfold Schema.junk in H. unfold solid at 1 3. cbn [fst]. destruct (is_trivia k1) eqn:T; cbn [orb negb app] in *.
    + rewrite app_nil_r in H. destruct (IH H) as (k2 & s2 & H1 & H2 & H3 & H4). exists k2, s2. repeat split; auto. apply in_or_app. now left.
    + exists k1, s1. repeat split; auto; [apply in_or_app; right; now left|]. destruct (kind_eqb k1 TK_UNKNOWN) eqn:U; [right; now apply kind_eqb_eq|]. left.
      apply app_inj_tail in H as [_ H]. injection H as ->. reflexivity.
  - apply app_inj_tail in H as [_ H]. discriminate.
Qed.

(** The text of a delimiter, by its kind. *)
Definition sign_eqb (a b : option trimming) : bool :=
  match a, b with Some RemoveAll, Some RemoveAll | Some RemoveExceptNewLines, Some RemoveExceptNewLines | None, None => true | _, _ => false end.
Lemma sign_eqb_eq a b : sign_eqb a b = true -> a = b.
Proof. destruct a as [[|]|], b as [[|]|]; (reflexivity || discriminate). Qed.
Lemma delimiter_entries : forallb (fun e => if existsb (kind_eqb (snd e)) (openers ++ closers) then
    match fst e with PLit l => sign_eqb (opening_sign (txt l)) (kind_leading (snd e)) && sign_eqb (closing_sign (txt l)) (kind_trailing (snd e)) | _ => false end else true)
  lex_table = true.
Proof. vm_compute. reflexivity. Qed.
Lemma one_char_sign c : opening_sign [c] = None /\ closing_sign [c] = None.
Proof. unfold opening_sign, closing_sign. cbn [existsb txt app map]. vm_compute txt. cbn [text_eqb]. rewrite !andb_false_r. auto. Qed.
Lemma leaf_sign dbg src t errs k s : parse_src dbg src = OK (t, errs) -> subtree (Leaf k s) t -> In k (TK_UNKNOWN :: openers ++ closers) ->
  opening_sign s = kind_leading k /\ closing_sign s = kind_trailing k.
Proof.
  intros P S [<-|I].
  - assert (L : length s = 1).
    { pose proof (PropParser.C08_leaves_refine_tokens _ _ _ _ P) as M.
      assert (J : In (TK_UNKNOWN, s) (leaves t)).
      { clear - S. remember (Leaf TK_UNKNOWN s) as x eqn:E. induction S as [|k' cs c Hc _ IH].
        - subst. now left.
        - cbn [leaves]. apply in_flat_map. exists c. split; [exact Hc|]. now apply IH. }
      assert (T : exists tk, In tk (lex src) /\ tk_kind tk = TK_UNKNOWN /\ tk_text tk = s).
      { clear - M J. induction M as [|k' tk ls ts Hk _ IH|c tk ls ts _ _ _ IH]; [destruct J| |].
        - destruct J as [J|J]; [|destruct (IH J) as (x & X1 & X2); exists x; split; [now right|exact X2]].
          injection J as -> <-. destruct Hk as [->|[K _]]; [|discriminate K]. exists tk. split; [now left|auto].
        - destruct J as [J|J]; [|destruct (IH J) as (x & X1 & X2); exists x; split; [now do 2 right|exact X2]].
          injection J as K _. discriminate K. }
      destruct T as (tk & T1 & T2 & T3). apply in_split in T1 as (pre & post & T1).
      destruct (PropLexer.C09_longest_match _ _ _ _ T1) as [(_ & U & _)|(p & k' & w & (_ & D & _ & (t1 & t2 & Et & _)) & _ & W)]; [now rewrite <- T3|].
      exfalso. assert (K : k' = TK_UNKNOWN).
      { destruct W as [(_ & _ & W1 & W2)|[(_ & [[W _]|[W _]])|(_ & [[W _]|[W _]])]]; try (rewrite T2 in W; discriminate W). congruence. }
      assert (F : forallb (fun e => negb (kind_eqb (snd e) TK_UNKNOWN)) lex_table = true) by (vm_compute; reflexivity).
      rewrite forallb_forall in F. specialize (F (p, k')). rewrite Et in F. specialize (F (in_elt _ _ _)). cbn [snd] in F. rewrite K in F. vm_compute in F. discriminate F. }
    destruct s as [|c [|d s]]; try discriminate L. exact (one_char_sign c).
  - assert (K : existsb (kind_eqb k) (openers ++ closers) = true) by (apply existsb_exists; exists k; split; [exact I|now apply kind_eqb_eq]).
    assert (NS : special k = false).
    { assert (F : forallb (fun x => negb (special x)) (openers ++ closers) = true) by (vm_compute; reflexivity).
      rewrite forallb_forall in F. specialize (F _ I). now apply negb_true_iff in F. }
    destruct (leaf_in_table _ _ _ _ P k s S NS) as (p & Ip & D).
    pose proof delimiter_entries as F. rewrite forallb_forall in F. specialize (F _ Ip). cbn [fst snd] in F. rewrite K in F.
    destruct p as [l|l|r]; try discriminate F. apply andb_true_iff in F as [F1 F2]. apply sign_eqb_eq in F1, F2. cbn [PropLexer.describes] in D. subst s. auto.
Qed.

Section Control.
  Context (dbg : bool) (src : text) (t : tree) (HP : parse_src dbg src = OK (t, [])).
  Theorem C62_whitespace_control_partial : forall k e, In k delimited -> In e (elements t) -> a_node k e ->
    (exists s, first_solid (el_tree e) = Some s /\ leading_ws_control e = opening_sign s) /\
    (exists s, last_solid (el_tree e) = Some s /\ trailing_ws_control e = closing_sign s).
  Proof.
    intros k e Ik He Hk. pose proof delimited_models as F. rewrite forallb_forall in F. specialize (F _ Ik).
    destruct (Schema.schema k) as [m|] eqn:Em; [|discriminate]. apply andb_true_iff in F as [Fs Fe].
    assert (Kn : k <> TWIG_ARROW_FUNCTION) by (intros ->; revert Ik; vm_compute; intuition discriminate).
    pose proof (node_sem dbg src t HP _ e _ He Hk Kn Em) as C.
    pose proof (non_trivia_own e) as O. pose proof (element_subtree _ _ He) as S. destruct Hk as (cs & Et).
    unfold first_solid, last_solid, leading_ws_control, trailing_ws_control, first_non_trivia_token, last_non_trivia_token. rewrite Et in *. cbn [children leaves] in *.
    assert (L : forall k1 s1, In (Leaf k1 s1) cs -> subtree (Leaf k1 s1) t).
    { intros k1 s1 H. clear - S H. remember (Node k cs) as x eqn:E. induction S as [|k' cs' y Hy S IH].
      - rewrite E. apply sub_child with (Leaf k1 s1); [exact H|constructor].
      - apply sub_child with y; [exact Hy|now apply IH]. }
    split.
    - destruct (starts_sound _ _ _ Fs C) as (k0 & r & E & I0). destruct (first_own _ _ _ E) as (k1 & s1 & H1 & H2 & H3 & H4).
      exists s1. rewrite H1. split; [reflexivity|]. rewrite <- O in H2. destruct (non_trivia_tokens e) as [|x l]; [discriminate|].
      cbn [map hd_error obind] in *. injection H2 as Ek _. change (kind_leading (el_kind x) = opening_sign s1). rewrite Ek. symmetry.
      apply (leaf_sign dbg src t [] _ _ HP (L _ _ H3)). destruct H4 as [->|H4]; [right; apply in_or_app; now left|left; auto].
    - destruct (ends_sound _ _ _ Fe C) as (k0 & r & E & I0). destruct (last_own _ _ _ E) as (k1 & s1 & H1 & H2 & H3 & H4).
      exists s1. rewrite H1. split; [reflexivity|]. rewrite <- O, <- map_rev in H2. destruct (rev (non_trivia_tokens e)) as [|x l]; [discriminate|].
      cbn [map hd_error obind] in *. injection H2 as Ek _. change (kind_trailing (el_kind x) = closing_sign s1). rewrite Ek. symmetry.
      apply (leaf_sign dbg src t [] _ _ HP (L _ _ H3)). destruct H4 as [->|H4]; [right; apply in_or_app; now right|left; auto].
  Qed.
End Control.

(** * The cases in which an accessor does not give the part it is named after *)
Definition all_of (k : kind) (src : string) : list elem :=
  match parse_src true (txt src) with OK (t, []) => filter (node_of k) (elements t) | _ => [] end.
Definition look_at {A} (k : kind) (src : string) (f : elem -> A) : list A := map f (all_of k src).
Definition said : option elem -> option text := option_map el_text.
Ltac parsed :=
  match goal with |- context [parse_src true ?s] => let r := eval vm_compute in (parse_src true s) in match r with OK (?t0, _) => exists t0 end end.
(** The left operand of a - b is a, but that of a + b - c is given as c, and the right one not at all. *)
Theorem C62_left_operand_refuted : exists src t e l op r,
  parse_src true src = OK (t, []) /\ In e (elements t) /\ a_node TWIG_BINARY_EXPRESSION e /\ parts e = [l; op; r] /\
  el_text l = txt " a + b" /\ el_text r = txt " c" /\ lhs_expression e = Some r /\ rhs_expression e = None.
Proof.
  exists (txt "{{ a + b - c }}"). parsed.
  match goal with |- context [elements ?t0] => let es := eval vm_compute in (filter (node_of TWIG_BINARY_EXPRESSION) (elements t0)) in
    match es with ?e :: _ => exists e; let ps := eval vm_compute in (parts e) in match ps with [?l; ?op; ?r] => exists l, op, r end end end.
  repeat split; try (vm_compute; reflexivity).
  - vm_compute. tauto.
  - eexists. reflexivity.
Qed.

(** An attribute inside a tag is not among the attributes of the element and does not know its element. *)
Theorem C62_every_attribute_refuted : exists src t e a,
  parse_src true src = OK (t, []) /\ In e (elements t) /\ a_node HTML_TAG e /\ attributes e = [] /\
  In a (elements t) /\ a_node HTML_ATTRIBUTE a /\ el_text a = txt "b=""c""" /\ attribute_html_tag a = None.
Proof.
  exists (txt "<div {% if a %}b=""c""{% endif %}></div>"). parsed.
  match goal with |- context [elements ?t0] =>
    let es := eval vm_compute in (filter (node_of HTML_TAG) (elements t0)) in match es with ?e :: _ => exists e end;
    let es := eval vm_compute in (filter (node_of HTML_ATTRIBUTE) (elements t0)) in match es with ?e :: _ => exists e end end.
  repeat split; try (vm_compute; reflexivity); try (vm_compute; tauto); eexists; reflexivity.
Qed.
(** A comment that ends with a word ends with a minus sign that is not seen: the word takes it. *)
Theorem C62_closing_sign_refuted : exists src t e,
  parse_src true src = OK (t, []) /\ In e (elements t) /\ a_node TWIG_COMMENT e /\ el_text e = txt "{#- a-#}" /\
  leading_ws_control e = Some RemoveAll /\ trailing_ws_control e = None.
Proof.
  exists (txt "{#- a-#}"). parsed.
  match goal with |- context [elements ?t0] =>
    let es := eval vm_compute in (filter (node_of TWIG_COMMENT) (elements t0)) in match es with ?e :: _ => exists e end end.
  repeat split; try (vm_compute; reflexivity); try (vm_compute; tauto); eexists; reflexivity.
Qed.

(** Assignments and overrides have no delimiters: asking them for white space control is in vain. *)
Fixpoint toks_in (ks : list kind) (m : Schema.cm) : bool :=
  match m with
  | Schema.Eps => true
  | Schema.One ss => forallb (fun s => match s with Schema.Tok k => existsb (kind_eqb k) ks | _ => true end) ss
  | Schema.AnyTok => false
  | Schema.Seq a b | Schema.Alt a b => toks_in ks a && toks_in ks b
  | Schema.Many a => toks_in ks a
  end.
Lemma toks_sound ks : forall m l, toks_in ks m = true -> Schema.sem m l -> forall k, In (Schema.Tok k) l -> In k ks.
Proof.
  induction m as [|ss| |a IHa b IHb|a IHa b IHb|a IHa]; intros l S H k I; cbn [toks_in] in S; cbn [Schema.sem] in H; try discriminate.
  - subst l. destruct I.
  - destruct H as (s & -> & Hs). rewrite forallb_forall in S. specialize (S _ Hs). destruct I as [->|[]].
    apply existsb_exists in S as (x & Hx & E). apply kind_eqb_eq in E as <-. exact Hx.
  - apply andb_true_iff in S as [S1 S2]. destruct H as (x & y & -> & Ha & Hb). apply in_app_or in I as [I|I]; eauto.
  - apply andb_true_iff in S as [S1 S2]. destruct H as [H|H]; eauto.
  - induction H as [|x y Hx _ IH]; [destruct I|]. apply in_app_or in I as [I|I]; eauto.
Qed.
Theorem C62_no_delimiters : forall dbg src t, parse_src dbg src = OK (t, []) -> forall e, In e (elements t) ->
  a_node TWIG_ASSIGNMENT e \/ a_node TWIG_OVERRIDE e -> leading_ws_control e = None /\ trailing_ws_control e = None.
Proof.
  intros dbg src t HP e He Hk.
  assert (T : forall x, In x (non_trivia_tokens e) -> In (el_kind x) [TK_COMMA; TK_EQUAL; TK_AS; TK_UNKNOWN]).
  { assert (C : exists m, toks_in [TK_COMMA; TK_EQUAL; TK_AS] m = true /\ Schema.sem m (Schema.content (children (el_tree e)))).
    { destruct Hk as [Hk|Hk]; (eexists; split; [|exact (node_sem dbg src t HP _ e _ He Hk ltac:(discriminate) eq_refl)]); vm_compute; reflexivity. }
    destruct C as (m & M & C). intros x Hx. assert (Ix : In (el_kind x, el_text x) (filter solid (own_tokens (children (el_tree e))))).
    { rewrite <- non_trivia_own. apply (in_map (fun y => (el_kind y, el_text y))). exact Hx. }
    apply filter_In in Ix as [Ix Sx]. unfold own_tokens in Ix. apply in_flat_map in Ix as (c & Hc & Ix). destruct c as [k s|k cs]; [|destruct Ix].
    destruct Ix as [Ix|[]]. injection Ix as Ek _. rewrite <- Ek in *. unfold solid in Sx. cbn [fst] in Sx. apply negb_true_iff in Sx.
    destruct (kind_eqb k TK_UNKNOWN) eqn:U; [apply kind_eqb_eq in U as ->; cbn [In]; tauto|].
    assert (Ik : In k [TK_COMMA; TK_EQUAL; TK_AS]); [|cbn [In] in Ik |- *; tauto].
    apply (toks_sound _ _ _ M C). unfold Schema.content. apply in_flat_map. exists (Leaf k s). split; [exact Hc|].
    cbn [Schema.symbol]. unfold Schema.junk. rewrite Sx, U. now left. }
  unfold leading_ws_control, trailing_ws_control, first_non_trivia_token, last_non_trivia_token. split.
  - destruct (non_trivia_tokens e) as [|x l]; [reflexivity|]. cbn [hd_error obind]. specialize (T x (or_introl eq_refl)). cbn [In] in T.
    destruct T as [T|[T|[T|[T|[]]]]]; rewrite <- T; reflexivity.
  - destruct (rev (non_trivia_tokens e)) as [|x l] eqn:R; [reflexivity|]. cbn [hd_error obind].
    assert (Ix : In x (non_trivia_tokens e)) by (apply in_rev; rewrite R; now left). specialize (T x Ix). cbn [In] in T.
    destruct T as [T|[T|[T|[T|[]]]]]; rewrite <- T; reflexivity.
Qed.

(** Conversely every tag offers it: a node with an opening delimiter among its own tokens is one of
    those, the [sw_thumbnails] tag, a directive, or some kind of text. *)
Definition plain_texts : list kind := [BODY; TWIG_LITERAL_STRING_INNER; HTML_STRING_INNER; HTML_TEXT; HTML_RAW_TEXT; HTML_COMMENT].
Theorem C62_tags_offer_control : forall dbg src t, parse_src dbg src = OK (t, []) -> forall k e x, In e (elements t) -> a_node k e ->
  In x (parts e) -> is_node (el_tree x) = false -> In (el_kind x) openers -> k <> TWIG_ARROW_FUNCTION ->
  In k has_whitespace_control \/ k = SHOPWARE_THUMBNAILS \/ In k [LUDTWIG_DIRECTIVE_FILE_IGNORE; LUDTWIG_DIRECTIVE_IGNORE] \/ In k plain_texts.
Proof.
  intros dbg src t HP k e x He Hk Hx Nx Ox Kn. pose proof (proj1 (node_wf dbg src t HP k e He Hk Kn)) as C. unfold Schema.conforms in C.
  destruct (Schema.schema k) as [m|] eqn:Em; [|destruct C].
  set (others := filter (fun k => negb (existsb (kind_eqb k) openers)) all_kinds).
  assert (F : forallb (fun k => existsb (kind_eqb k) (has_whitespace_control ++ SHOPWARE_THUMBNAILS :: LUDTWIG_DIRECTIVE_FILE_IGNORE :: LUDTWIG_DIRECTIVE_IGNORE :: plain_texts)
    || match Schema.schema k with Some m => toks_in others m | None => true end) all_kinds = true) by (vm_compute; reflexivity).
  rewrite forallb_forall in F. specialize (F k (nth_error_In _ _ (kind_idx_nth k))). apply orb_true_iff in F as [F|F].
  - apply existsb_exists in F as (y & Hy & Ey). apply kind_eqb_eq in Ey as <-. apply in_app_or in Hy as [Hy|Hy]; [now left|right]. cbn [In] in *.
    destruct Hy as [<-|[<-|[<-|Hy]]]; auto 6.
  - exfalso. rewrite Em in F.
    assert (Ic : In (Schema.Tok (el_kind x)) (Schema.content (children (el_tree e)))).
    { apply parts_children, (in_map el_tree) in Hx. rewrite children_with_tokens_trees in Hx. unfold Schema.content. apply in_flat_map. exists (el_tree x). split; [exact Hx|]. unfold el_kind in *.
      destruct (el_tree x) as [k0 s0|]; [|discriminate Nx]. cbn [Schema.symbol tree_kind] in *. unfold Schema.junk.
      assert (J : negb (is_trivia k0) && negb (kind_eqb k0 TK_UNKNOWN) = true).
      { assert (G : forallb (fun k => negb (is_trivia k) && negb (kind_eqb k TK_UNKNOWN)) openers = true) by (vm_compute; reflexivity). rewrite forallb_forall in G. now apply G. }
      apply andb_true_iff in J as [J1 J2]. apply negb_true_iff in J1, J2. rewrite J1, J2. now left. }
    pose proof (toks_sound others _ _ F C _ Ic) as I. unfold others in I. apply filter_In in I as [_ I]. apply negb_true_iff in I.
    assert (X : existsb (kind_eqb (el_kind x)) openers = true) by (apply existsb_exists; exists (el_kind x); split; [exact Ox|apply kind_eqb_refl]). congruence.
Qed.

(** * Cases *)
Example C62_cases :
  look_at TWIG_BLOCK "{% block a %}b{% endblock %}{% block c 1 %}" (fun e => (said (block_name e), said (body e), said (ending_block e))) =
    [(Some (txt "a"), Some (txt "b"), Some (txt "{% endblock %}")); (Some (txt "c"), None, None)] /\
  look_at HTML_TAG "<p a b=""c"">d</p><br><x/>" (fun e => (said (html_tag_name e), map el_text (attributes e), is_self_closing e, said (body e))) =
    [(Some (txt "p"), [txt " a"; txt " b=""c"""], false, Some (txt "d")); (Some (txt "br"), [], true, None); (Some (txt "x"), [], true, None)] /\
  look_at HTML_ATTRIBUTE "<p a b=""c""/>" (fun e => (said (attribute_name e), said (attribute_value e))) =
    [(Some (txt "a"), None); (Some (txt "b"), Some (txt """c"""))] /\
  look_at TWIG_BINARY_EXPRESSION "{{ a ~ b }}" (fun e => (said (lhs_expression e), said (binary_operator e), said (rhs_expression e))) =
    [(Some (txt " a"), Some (txt "~"), Some (txt " b"))] /\
  look_at TWIG_VAR "{{- a ~}}" (fun e => (leading_ws_control e, trailing_ws_control e)) = [(Some RemoveAll, Some RemoveExceptNewLines)] /\
  look_at TWIG_IF_BLOCK "{%~ if a -%}{% endif %}" (fun e => (leading_ws_control e, trailing_ws_control e)) = [(Some RemoveExceptNewLines, Some RemoveAll)] /\
  look_at TWIG_ASSIGNMENT "{%- set a = 1 -%}" (fun e => (leading_ws_control e, trailing_ws_control e)) = [(None, None)] /\
  look_at TWIG_FUNCTION_CALL "{{ f(1) }}" (fun e => (said (name_operand e), said (arguments e))) = [(Some (txt " f"), Some (txt "(1)"))].
Proof. repeat split; vm_compute; reflexivity. Qed.

Print Assumptions C62_blocks.
Print Assumptions C62_elements.
Print Assumptions C62_attributes.
Print Assumptions C62_attribute_tags_partial.
Print Assumptions C62_binary_operands_partial.
Print Assumptions C62_parts.
Print Assumptions C62_whitespace_control_partial.
Print Assumptions C62_no_delimiters.
Print Assumptions C62_tags_offer_control.
Print Assumptions C62_left_operand_refuted.
Print Assumptions C62_every_attribute_refuted.
Print Assumptions C62_closing_sign_refuted.
