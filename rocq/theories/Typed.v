(** Typed accessors: crates/ludtwig-parser/src/syntax/typed.rs and rowan::ast::support.
    A typed node is an element whose kind has been checked. *)
From Coq Require Import NArith Bool Arith List.
Import ListNotations.
From Verif Require Import Text Kind Machine TreeSpec Red.

(** Option::and_then and [?] (std) *)
Definition obind {A B : Type} (o : option A) (f : A -> option B) : option B :=
  match o with Some a => f a | None => None end.
Notation "'let?' x ':=' a 'in' b" := (obind a (fun x => b)) (at level 200, x binder, a at level 100, b at level 200).

(** ast_node!: cast / can_cast (typed.rs:92-108) *)
Definition cast (k : kind) (e : elem) : option elem :=
  if is_node (el_tree e) && kind_eqb (el_kind e) k then Some e else None.

(** rowan::ast::support::child, children, token *)
Definition support_children (k : kind) (e : elem) : list elem :=
  filter (fun c => kind_eqb (el_kind c) k) (child_nodes e).
(** rowan ast::support::child, library *)
Definition support_child (k : kind) (e : elem) : option elem :=
  find (fun c => kind_eqb (el_kind c) k) (child_nodes e).
(** rowan ast::support::token, library *)
Definition support_token (k : kind) (e : elem) : option elem :=
  find (fun c => kind_eqb (el_kind c) k) (child_tokens e).

(** typed.rs:139-152 TwigBlock::starting_block, ending_block *)
Definition starting_block (e : elem) : option elem := support_child TWIG_STARTING_BLOCK e.
(** typed.rs:149-152 TwigBlock::ending_block *)
Definition ending_block (e : elem) : option elem := support_child TWIG_ENDING_BLOCK e.
(** typed.rs:157-161 TwigStartingBlock::name *)
Definition starting_block_name (e : elem) : option elem := support_token TK_WORD e.
(** typed.rs:133-137 TwigBlock::name *)
Definition block_name (e : elem) : option elem :=
  let? s := starting_block e in starting_block_name s.

(** typed.rs:227-234 HtmlStartingTag::name *)
Definition starting_tag_name (e : elem) : option elem :=
  find (fun t => kind_eqb (el_kind t) TK_WORD || kind_eqb (el_kind t) TK_TWIG_COMPONENT_NAME)
       (child_tokens e).
(** typed.rs:209-212 HtmlTag::starting_tag; 181-185 HtmlTag::name *)
Definition starting_tag (e : elem) : option elem := support_child HTML_STARTING_TAG e.
(** typed.rs:181-185 HtmlTag::name *)
Definition html_tag_name (e : elem) : option elem :=
  let? s := starting_tag e in starting_tag_name s.
(** typed.rs:252-256 HtmlStartingTag::is_twig_component *)
Definition is_twig_component (e : elem) : bool :=
  match support_token TK_TWIG_COMPONENT_NAME e with Some _ => true | None => false end.

(** typed.rs:261-265 HtmlAttribute::name; 267-271 value; 273-281 html_tag *)
Definition attribute_name (e : elem) : option elem := support_token TK_WORD e.
(** typed.rs:267-271 HtmlAttribute::value *)
Definition attribute_value (e : elem) : option elem := support_child HTML_STRING e.
(** typed.rs:273-281 HtmlAttribute::html_tag *)
Definition attribute_html_tag (e : elem) : option elem :=
  let? p := parent e in let? g := parent p in cast HTML_STARTING_TAG g.

(** typed.rs:310-318 TwigBinaryExpression::operator; 325-331 rhs_expression *)
Definition binary_operator (e : elem) : option elem :=
  find (fun t => negb (is_trivia (el_kind t))) (child_tokens e).
(** typed.rs:325-331 TwigBinaryExpression::rhs_expression *)
Definition rhs_expression (e : elem) : option elem :=
  nth_error (support_children TWIG_EXPRESSION e) 1.

(** typed.rs:339-350 LudtwigDirectiveRuleList::get_rule_names *)
Definition get_rule_names (e : elem) : list text :=
  map el_text (filter (fun t => kind_eqb (el_kind t) TK_WORD) (child_tokens e)).
(** typed.rs:357-364, 367-374 LudtwigDirectiveFileIgnore / LudtwigDirectiveIgnore::get_rules *)
Definition get_rules (e : elem) : list text :=
  match support_child LUDTWIG_DIRECTIVE_RULE_LIST e with
  | Some l => get_rule_names l
  | None => []
  end.

(** typed.rs:378-381 TwigLiteralString::get_inner, 432-436 HtmlString::get_inner *)
Definition twig_string_inner (e : elem) : option elem := support_child TWIG_LITERAL_STRING_INNER e.
(** typed.rs:433-436 HtmlString::get_inner *)
Definition html_string_inner (e : elem) : option elem := support_child HTML_STRING_INNER e.

(** Iterator::take_while (std) *)
Fixpoint take_while {A : Type} (f : A -> bool) (l : list A) : list A :=
  match l with x :: r => if f x then x :: take_while f r else [] | [] => [] end.
(** Iterator::skip_while (std) *)
Fixpoint skip_while {A : Type} (f : A -> bool) (l : list A) : list A :=
  match l with x :: r => if f x then skip_while f r else l | [] => [] end.

(** the find_map of typed.rs:394-398, 412-416 *)
Definition is_plain_token (e : elem) : bool :=
  negb (is_node (el_tree e)) && negb (is_trivia (el_kind e)).
(** typed.rs:383-399, 438-454 get_opening_quote *)
Definition opening_quote (e : elem) : option elem :=
  find is_plain_token (take_while (fun c => negb (is_node (el_tree c))) (children_with_tokens e)).
(** typed.rs:401-417, 456-472 get_closing_quote *)
Definition closing_quote (e : elem) : option elem :=
  find is_plain_token (skip_while (fun c => negb (is_node (el_tree c))) (children_with_tokens e)).

(** typed.rs:425-428 TwigLiteralStringInner::get_interpolations *)
Definition get_interpolations (e : elem) : list elem :=
  support_children TWIG_LITERAL_STRING_INTERPOLATION e.

(** typed.rs:477-480 TwigExtends::get_extends_keyword *)
Definition extends_keyword (e : elem) : option elem := support_token TK_EXTENDS e.
(** typed.rs:493-496 TwigLiteralName::get_name *)
Definition literal_name (e : elem) : option elem := support_token TK_WORD e.
(** typed.rs:514-525 TwigFilter::operand, filter *)
Definition filter_operand (e : elem) : option elem := support_child TWIG_OPERAND e.
(** typed.rs:520-525 TwigFilter::filter *)
Definition filter_filter (e : elem) : option elem := nth_error (support_children TWIG_OPERAND e) 1.
(** typed.rs:532-537 TwigFunctionCall::name_operand *)
Definition name_operand (e : elem) : option elem := support_child TWIG_OPERAND e.

(** untyped.rs:991-1007 text_range_trimmed_trivia *)
Fixpoint trim_trivia (cs : list elem) (s e : nat) : nat :=
  match cs with
  | c :: r =>
    if negb (is_node (el_tree c)) && is_trivia (el_kind c)
    then let s' := s + tree_len (el_tree c) in trim_trivia r (if Nat.ltb s' e then s' else s) e
    else s
  | [] => s
  end.
(** untyped.rs:991-1007 text_range_trimmed_trivia *)
Definition range_trimmed_trivia (e : elem) : nat * nat :=
  (trim_trivia (children_with_tokens e) (el_start e) (el_end e), el_end e).
