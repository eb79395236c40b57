(** Twig statements, HTML and the root of the grammar:
    crates/ludtwig-parser/src/grammar.rs, grammar/twig.rs, grammar/html.rs. *)
From Coq Require Import List NArith String Bool.
Import ListNotations.
From Verif Require Import Text Kind Regex Lexer ParserApi GrammarExpr GrammarTags.
Local Open Scope string_scope.
Local Open Scope list_scope.
Local Open Scope prog_scope.

(** html.rs:11-12  ^([a-zA-Z]|([:@\#_\$][a-zA-Z]))[a-zA-Z0-9_\-]*$ *)
Definition HTML_ATTRIBUTE_NAME_REGEX : regex :=
  RSeq (RAlt (RClass cl_letter)
             (RSeq (RClass [(58,58);(64,64);(35,35);(95,95);(36,36)]%N) (RClass cl_letter)))
       (RStar (RClass cl_word)).
(** html.rs:14-15  ^[a-zA-Z][a-zA-Z0-9\-]*$ *)
Definition HTML_TAG_NAME_REGEX : regex :=
  RSeq (RClass cl_letter) (RStar (RClass [(97,122);(65,90);(48,57);(45,45)]%N)).

(** html.rs:18-21 *)
Definition HTML_VOID_ELEMENTS : list text :=
  map txt ["area"; "base"; "br"; "col"; "command"; "embed"; "hr"; "img"; "input"; "keygen";
           "link"; "meta"; "param"; "source"; "track"; "wbr"].
(** html.rs:24 *)
Definition HTML_RAW_TEXT_ELEMENTS : list text := map txt ["script"; "style"; "textarea"; "title"].

(** grammar.rs:63-94 *)
Definition parse_ludtwig_directive (outer : nat) (closing_kinds : list kind) : prog nat :=
  debug_assert (l_at_set [TK_LUDTWIG_IGNORE_FILE; TK_LUDTWIG_IGNORE]) ;;
  is_file <- at_ TK_LUDTWIG_IGNORE_FILE ;;
  let ignore_kind :=
    if is_file : bool then LUDTWIG_DIRECTIVE_FILE_IGNORE else LUDTWIG_DIRECTIVE_IGNORE in
  bump ;;
  rule_list_m <- start ;;
  parse_many (at_set closing_kinds)
    (expect TK_WORD (TK_COMMA :: closing_kinds) ;;
     opt_bump TK_COMMA) ;;
  complete rule_list_m LUDTWIG_DIRECTIVE_RULE_LIST ;;
  expect_any closing_kinds [] ;;
  complete outer ignore_kind.

(** twig.rs:44-55 *)
Definition parse_twig_plain_comment (outer : nat) : prog nat :=
  parse_many (at_set TWIG_COMMENT_CLOSE_SET) (bump ;; Ret tt) ;;
  expect_any TWIG_COMMENT_CLOSE_SET [] ;;
  complete outer TWIG_COMMENT.

(** twig.rs:32-42 *)
Definition parse_twig_comment_statement : prog nat :=
  debug_assert (l_at_set TWIG_COMMENT_OPEN_SET) ;;
  m <- start ;;
  bump ;;
  If at_set [TK_LUDTWIG_IGNORE_FILE; TK_LUDTWIG_IGNORE]
  Then parse_ludtwig_directive m TWIG_COMMENT_CLOSE_SET
  Else parse_twig_plain_comment m.

(** twig.rs:57-69 *)
Definition parse_twig_var_statement : prog nat :=
  debug_assert (l_at_set TWIG_VAR_OPEN_SET) ;;
  m <- start ;;
  bump ;;
  expression_or "twig expression" TWIG_EXPRESSION_RECOVERY_SET ;;
  expect_any TWIG_VAR_CLOSE_SET [] ;;
  complete m TWIG_VAR.

(** twig.rs:17-30 *)
Definition parse_any_twig (child : pfun) : prog (option nat) :=
  If at_twig_block_open Then parse_twig_block_statement child
  Else If at_twig_var_open Then c <- parse_twig_var_statement ;; Ret (Some c)
  Else If at_twig_comment_open Then c <- parse_twig_comment_statement ;; Ret (Some c)
  Else Ret None.

(** html.rs:44-54 *)
Definition parse_html_doctype : prog nat :=
  debug_assert (l_at TK_LESS_THAN_EXCLAMATION_MARK) ;;
  m <- start ;;
  bump ;;
  expect TK_DOCTYPE [TK_WORD; TK_GREATER_THAN] ;;
  expect TK_WORD [TK_GREATER_THAN] ;;
  expect TK_GREATER_THAN [] ;;
  complete m HTML_DOCTYPE.

(** html.rs:57-62 parser_at_less_than_non_word, also html.rs:27-30 negated on its second part *)
Definition l_less_than_non_word (r : list token) : bool :=
  l_at TK_LESS_THAN r &&
  match nth_error r 1 with
  | None => true
  | Some t => kind_eqb (tk_kind t) TK_WHITESPACE || kind_eqb (tk_kind t) TK_NUMBER
              || mem_kind (tk_kind t) GENERAL_RECOVERY_SET
  end.

(** html.rs:64-67 and 76-77 *)
Definition l_html_text_end (r : list token) : bool :=
  l_at_set [TK_LESS_THAN_SLASH] r || (l_at_set GENERAL_RECOVERY_SET r && negb (l_less_than_non_word r)).

(** html.rs:56-85 *)
Definition parse_html_text : prog (option nat) :=
  stop <- look (fun r => l_at_end r || l_html_text_end r) ;;
  if stop : bool then Ret None else
  m <- start ;;
  parse_many (look l_html_text_end) (bump ;; Ret tt) ;;
  c <- complete m HTML_TEXT ;; Ret (Some c).

(** html.rs:96-115 parse_html_raw_text_inner *)
Definition body_raw_inner : prog (option nat) :=
  raw_text_m <- start ;;
  parse_many at_twig_termination_tag
    (r <- parse_any_twig PFRawInner ;;
     when (is_none r) (bump_site SRawInner ;; Ret tt)) ;;
  c <- complete raw_text_m HTML_RAW_TEXT ;; Ret (Some c).

(** html.rs:123-135 and 235-249: the early-exit closure of an element's children; the state
    is [matching_end_tag_encountered] *)
Definition early_end_tag (tag_kind : kind) (tag_name : text) (met : bool) : prog (bool * bool) :=
  If at_following_content [(TK_LESS_THAN_SLASH, None); (tag_kind, Some tag_name)] Then Ret (true, true)
  Else (b <- at_twig_termination_tag ;; Ret (b, met)).

(** html.rs:90-145 *)
Definition parse_html_raw_text (tag_kind : kind) (tag_name : text) : prog bool :=
  raw_text_m <- start ;;
  met <- parse_many_st (early_end_tag tag_kind tag_name)
    (fun met =>
       r <- parse_any_twig PFRawInner ;;
       when (is_none r) (bump_site SRawText ;; Ret tt) ;;
       Ret met) false ;;
  complete raw_text_m HTML_RAW_TEXT ;;
  Ret met.

(** html.rs:159-170 *)
Definition parse_plain_html_comment (outer : nat) : prog nat :=
  parse_many (at_ TK_MINUS_MINUS_GREATER_THAN) (bump ;; Ret tt) ;;
  expect TK_MINUS_MINUS_GREATER_THAN [] ;;
  complete outer HTML_COMMENT.

(** html.rs:147-157 *)
Definition parse_html_comment : prog nat :=
  debug_assert (l_at TK_LESS_THAN_EXCLAMATION_MARK_MINUS_MINUS) ;;
  m <- start ;;
  bump ;;
  If at_set [TK_LUDTWIG_IGNORE_FILE; TK_LUDTWIG_IGNORE]
  Then parse_ludtwig_directive m [TK_MINUS_MINUS_GREATER_THAN]
  Else parse_plain_html_comment m.

(** html.rs:373-381 child_parser *)
Definition html_string_child (inner : pfun) : prog unit :=
  r <- parse_any_twig inner ;;
  when (is_none r)
    (stop <- look (fun r => l_at_set [TK_GREATER_THAN; TK_SLASH_GREATER_THAN] r || l_at_set GENERAL_RECOVERY_SET r
                            || l_at_end r) ;;
     if stop : bool then Ret tt else bump ;; Ret tt).

(** html.rs:329-342 inner_double_quote_parser *)
Definition inner_double_quote_parser : prog (option nat) :=
  parse_many (look (fun r => l_at TK_DOUBLE_QUOTES r || l_termination_tag r))
    (html_string_child PFDouble) ;;
  Ret None.

(** html.rs:344-357 inner_single_quote_parser *)
Definition inner_single_quote_parser : prog (option nat) :=
  parse_many (look (fun r => l_at TK_SINGLE_QUOTES r || l_termination_tag r))
    (html_string_child PFSingle) ;;
  Ret None.

(** html.rs:359-371 inner_no_quote_parser *)
Definition inner_no_quote_parser : prog unit :=
  If at_ TK_WORD Then bump ;; Ret tt
  Else If at_twig_var_open Then parse_twig_var_statement ;; Ret tt
  Else (add_error "html attribute value" ;; recover [TK_WORD; TK_GREATER_THAN; TK_SLASH_GREATER_THAN]).

(** html.rs:328-433 *)
Definition parse_html_attribute_value_string : prog nat :=
  m <- start ;;
  quote_kind <-
    (If at_set [TK_DOUBLE_QUOTES; TK_SINGLE_QUOTES] Then t <- bump ;; Ret (Some (tk_kind t)) Else Ret None) ;;
  inner_m <- start ;;
  match quote_kind with
  | Some TK_DOUBLE_QUOTES => inner_double_quote_parser ;; Ret tt
  | Some TK_SINGLE_QUOTES => inner_single_quote_parser ;; Ret tt
  | None => inner_no_quote_parser
  | Some _ => fail PUnreachable
  end ;;
  when (is_some quote_kind) explicitly_consume_trivia ;;
  complete inner_m HTML_STRING_INNER ;;
  match quote_kind with
  | Some q => expect q [TK_GREATER_THAN; TK_SLASH_GREATER_THAN] ;; Ret tt
  | None =>
    If at_set [TK_DOUBLE_QUOTES; TK_SINGLE_QUOTES] Then
      error_m <- start ;;
      quote <- bump ;;
      add_error_at (txt "no trailing quote because there is no leading quote") quote ;;
      complete error_m ERROR ;; Ret tt
    Else Ret tt
  end ;;
  complete m HTML_STRING.

(** html.rs:315-321 *)
Definition parse_html_attribute_rest (attribute_m : nat) : prog (option nat) :=
  (If at_ TK_EQUAL Then bump ;; parse_html_attribute_value_string ;; Ret tt Else Ret tt) ;;
  c <- complete attribute_m HTML_ATTRIBUTE ;; Ret (Some c).

(** html.rs:286-290: token_text; [None] is the early return of [?] *)
Definition l_attr_text (r : list token) : option text :=
  if l_at TK_COLON r
  then match nth_error r 1 with None => None | Some t => Some (txt ":" ++ tk_text t) end
  else match r with [] => None | t :: _ => Some (tk_text t) end.

(** html.rs:285-322 *)
Definition body_attr : prog (option nat) :=
  otext <- look l_attr_text ;;
  match otext with
  | None => Ret None
  | Some token_text =>
    if rfull HTML_ATTRIBUTE_NAME_REGEX token_text then
      attribute_m <- start ;;
      (If at_ TK_COLON Then bump_next_n_as 2 TK_WORD ;; Ret tt
       Else (bump_as TK_WORD ;; Ret tt)) ;;
      parse_html_attribute_rest attribute_m
    else
      If at_twig_var_open Then
        attribute_m <- start ;;
        parse_twig_var_statement ;;
        parse_html_attribute_rest attribute_m
      Else parse_any_twig PFAttr
  end.

(** html.rs:196-204: the attribute list *)
Definition parse_attribute_list : prog unit :=
  attributes_m <- start ;;
  parse_many (look (fun r => l_at TK_GREATER_THAN r || l_at TK_SLASH_GREATER_THAN r)) (call_child PFAttr) ;;
  complete attributes_m HTML_ATTRIBUTE_LIST ;; Ret tt.

(** html.rs:257-280: the ending tag *)
Definition parse_html_ending_tag (tag_kind : kind) (tag_name : text) (met : bool) : prog unit :=
  end_tag_m <- start ;;
  (if met then
     expect TK_LESS_THAN_SLASH [tag_kind; TK_GREATER_THAN] ;;
     (If at_ TK_TWIG_COMPONENT_NAME Then bump ;; Ret tt
      Else If at_ tag_kind Then bump_as TK_WORD ;; Ret tt
      Else (add_error_t (tag_name ++ txt " as ending tag name") ;; recover [TK_GREATER_THAN])) ;;
     expect TK_GREATER_THAN [] ;; Ret tt
   else
     add_error_t (txt "</" ++ tag_name ++ txt "> ending tag") ;;
     recover []) ;;
  complete end_tag_m HTML_ENDING_TAG ;; Ret tt.

(** html.rs:172-283 *)
Definition parse_html_element : prog nat :=
  debug_assert (l_at TK_LESS_THAN) ;;
  m <- start ;;
  starting_tag_m <- start ;;
  bump ;;
  ot <- peek_token ;;
  let tag_name := match ot with Some t => tk_text t | None => [] end in
  let tag_name_lowercase := map to_lower_ascii tag_name in
  let tag_kind := match ot with Some t => tk_kind t | None => TK_WORD end in
  (if kind_eqb tag_kind TK_TWIG_COMPONENT_NAME then bump ;; Ret tt
   else if rfull HTML_TAG_NAME_REGEX tag_name then bump_as TK_WORD ;; Ret tt
   else add_error "HTML Tag Name" ;; recover [TK_GREATER_THAN; TK_SLASH_GREATER_THAN; TK_LESS_THAN_SLASH; TK_WORD]) ;;
  parse_attribute_list ;;
  is_self_closing <-
    (If at_ TK_SLASH_GREATER_THAN Then bump ;; Ret true
     Else (expect TK_GREATER_THAN [TK_LESS_THAN_SLASH; TK_WORD; TK_GREATER_THAN] ;; Ret false)) ;;
  let is_self_closing := is_self_closing || existsb (text_eqb tag_name_lowercase) HTML_VOID_ELEMENTS in
  complete starting_tag_m HTML_STARTING_TAG ;;
  if is_self_closing then complete m HTML_TAG else
  body_m <- start ;;
  met <-
    (if existsb (text_eqb tag_name_lowercase) HTML_RAW_TEXT_ELEMENTS
     then parse_html_raw_text tag_kind tag_name
     else parse_many_st (early_end_tag tag_kind tag_name)
            (fun met => call_child PFAny ;; Ret met) false) ;;
  complete body_m BODY ;;
  parse_html_ending_tag tag_kind tag_name met ;;
  complete m HTML_TAG.

(** html.rs:26-42 *)
Definition parse_any_html : prog (option nat) :=
  elem <- look (fun r => l_at TK_LESS_THAN r && negb (l_less_than_non_word r)) ;;
  if elem : bool then c <- parse_html_element ;; Ret (Some c)
  else If at_ TK_LESS_THAN_EXCLAMATION_MARK_MINUS_MINUS Then c <- parse_html_comment ;; Ret (Some c)
  Else If at_ TK_LESS_THAN_EXCLAMATION_MARK Then c <- parse_html_doctype ;; Ret (Some c)
  Else parse_html_text.

(** grammar.rs:59-61 parse_any_element *)
Definition body_any : prog (option nat) :=
  r <- parse_any_twig PFAny ;;
  match r with
  | Some c => Ret (Some c)
  | None => parse_any_html
  end.

(** The code behind each recursive entry point. *)
Definition body (c : call) : prog (option nat) :=
  match c with
  | CExpr bp => body_expression bp
  | CChild PFAny => body_any
  | CChild PFRawInner => body_raw_inner
  | CChild PFDouble => inner_double_quote_parser
  | CChild PFSingle => inner_single_quote_parser
  | CChild PFAttr => body_attr
  end.

(** grammar.rs:16-34 root *)
Definition root : prog nat :=
  m <- start ;;
  parse_many (Ret false)
    (r <- Call (CChild PFAny) (fun r => Ret r) ;;
     e <- (if is_none r then b <- at_end ;; Ret (negb b) else Ret false) ;;
     when e (add_error "html, text or twig element" ;; recover [])) ;;
  complete m ROOT.
