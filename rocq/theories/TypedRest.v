(** The accessors of crates/ludtwig-parser/src/syntax/typed.rs that no rule uses; they are part of
    the interface of the parser library.  See [Typed.v] for the others. *)
From Coq Require Import NArith Bool Arith List.
Import ListNotations.
From Verif Require Import Text Kind Machine TreeSpec Red Typed.

(** typed.rs:144-147 TwigBlock::body, 214-217 HtmlTag::body *)
Definition body (e : elem) : option elem := support_child BODY e.
(** typed.rs:163-167 TwigStartingBlock::twig_block, 172-176 TwigEndingBlock::twig_block *)
Definition twig_block (e : elem) : option elem := let? p := parent e in cast TWIG_BLOCK p.

(** typed.rs:219-222 HtmlTag::ending_tag *)
Definition ending_tag (e : elem) : option elem := support_child HTML_ENDING_TAG e.
(** typed.rs:187-191 HtmlTag::is_self_closing *)
Definition is_self_closing (e : elem) : bool :=
  match ending_tag e with Some _ => false | None => true end.
(** typed.rs:236-244 HtmlStartingTag::attributes *)
Definition starting_tag_attributes (e : elem) : list elem :=
  match support_child HTML_ATTRIBUTE_LIST e with
  | Some l => support_children HTML_ATTRIBUTE l
  | None => support_children HTML_ATTRIBUTE e
  end.
(** typed.rs:193-201 HtmlTag::attributes *)
Definition attributes (e : elem) : list elem :=
  match starting_tag e with
  | Some s => starting_tag_attributes s
  | None => support_children HTML_ATTRIBUTE e
  end.
(** typed.rs:203-207 HtmlTag::is_twig_component; the methods of the same name of the two parts
    (252-256, 301-305) are [Typed.is_twig_component] *)
Definition html_tag_is_twig_component (e : elem) : bool :=
  match starting_tag e with Some s => is_twig_component s | None => false end.
(** typed.rs:246-250 HtmlStartingTag::html_tag, 295-299 HtmlEndingTag::html_tag *)
Definition html_tag (e : elem) : option elem := let? p := parent e in cast HTML_TAG p.
(** typed.rs:286-293 HtmlEndingTag::name *)
Definition ending_tag_name (e : elem) : option elem :=
  find (fun t => kind_eqb (el_kind t) TK_WORD || kind_eqb (el_kind t) TK_TWIG_COMPONENT_NAME)
       (child_tokens e).

(** typed.rs:320-323 TwigBinaryExpression::lhs_expression *)
Definition lhs_expression (e : elem) : option elem := support_child TWIG_EXPRESSION e.
(** typed.rs:485-488 TwigVar::get_expression *)
Definition get_expression (e : elem) : option elem := support_child TWIG_EXPRESSION e.
(** typed.rs:539-543 TwigFunctionCall::arguments *)
Definition arguments (e : elem) : option elem := support_child TWIG_ARGUMENTS e.

(** typed.rs:22-28 WhitespaceTrimming *)
Inductive trimming : Set := RemoveAll | RemoveExceptNewLines.
(** typed.rs:30-36 first_non_trivia_token, 38-45 last_non_trivia_token *)
Definition non_trivia_tokens (e : elem) : list elem :=
  filter (fun t => negb (is_trivia (el_kind t))) (child_tokens e).
(** typed.rs:30-36 *)
Definition first_non_trivia_token (e : elem) : option elem := hd_error (non_trivia_tokens e).
(** typed.rs:38-45 *)
Definition last_non_trivia_token (e : elem) : option elem := hd_error (rev (non_trivia_tokens e)).
(** typed.rs:52-58 HasWhitespaceControl::leading_ws_control *)
Definition leading_ws_control (e : elem) : option trimming :=
  let? t := first_non_trivia_token e in
  match el_kind t with
  | TK_CURLY_PERCENT_MINUS | TK_OPEN_CURLY_CURLY_MINUS | TK_OPEN_CURLY_HASHTAG_MINUS => Some RemoveAll
  | TK_CURLY_PERCENT_TILDE | TK_OPEN_CURLY_CURLY_TILDE | TK_OPEN_CURLY_HASHTAG_TILDE => Some RemoveExceptNewLines
  | _ => None
  end.
(** typed.rs:60-68 HasWhitespaceControl::trailing_ws_control *)
Definition trailing_ws_control (e : elem) : option trimming :=
  let? t := last_non_trivia_token e in
  match el_kind t with
  | TK_MINUS_PERCENT_CURLY | TK_MINUS_CLOSE_CURLY_CURLY | TK_MINUS_HASHTAG_CLOSE_CURLY => Some RemoveAll
  | TK_TILDE_PERCENT_CURLY | TK_TILDE_CLOSE_CURLY_CURLY | TK_TILDE_HASHTAG_CLOSE_CURLY => Some RemoveExceptNewLines
  | _ => None
  end.

(** typed.rs:685-739 the nodes that implement HasWhitespaceControl *)
Definition has_whitespace_control : list kind :=
  [TWIG_STARTING_BLOCK; TWIG_ENDING_BLOCK; TWIG_IF_BLOCK; TWIG_ELSE_IF_BLOCK; TWIG_ELSE_BLOCK; TWIG_ENDIF_BLOCK;
   TWIG_SET_BLOCK; TWIG_ENDSET_BLOCK; TWIG_FOR_BLOCK; TWIG_FOR_ELSE_BLOCK; TWIG_ENDFOR_BLOCK; TWIG_INCLUDE; TWIG_USE;
   TWIG_OVERRIDE; TWIG_APPLY_STARTING_BLOCK; TWIG_APPLY_ENDING_BLOCK; TWIG_AUTOESCAPE_STARTING_BLOCK;
   TWIG_AUTOESCAPE_ENDING_BLOCK; TWIG_DEPRECATED; TWIG_DO; TWIG_EMBED_STARTING_BLOCK; TWIG_EMBED_ENDING_BLOCK; TWIG_FLUSH;
   TWIG_FROM; TWIG_IMPORT; TWIG_EXTENDS; TWIG_SANDBOX_STARTING_BLOCK; TWIG_SANDBOX_ENDING_BLOCK;
   TWIG_VERBATIM_STARTING_BLOCK; TWIG_VERBATIM_ENDING_BLOCK; TWIG_MACRO_STARTING_BLOCK; TWIG_MACRO_ENDING_BLOCK;
   TWIG_WITH_STARTING_BLOCK; TWIG_WITH_ENDING_BLOCK; TWIG_CACHE_STARTING_BLOCK; TWIG_CACHE_ENDING_BLOCK; TWIG_PROPS;
   TWIG_COMPONENT_STARTING_BLOCK; TWIG_COMPONENT_ENDING_BLOCK; TWIG_TRANS_STARTING_BLOCK; TWIG_TRANS_ENDING_BLOCK;
   TWIG_ASSIGNMENT; SHOPWARE_TWIG_SW_EXTENDS; SHOPWARE_TWIG_SW_INCLUDE; SHOPWARE_SILENT_FEATURE_CALL_STARTING_BLOCK;
   SHOPWARE_SILENT_FEATURE_CALL_ENDING_BLOCK; SHOPWARE_RETURN; SHOPWARE_ICON; TWIG_VAR; TWIG_COMMENT].
