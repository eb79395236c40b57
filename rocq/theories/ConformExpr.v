(** Conformance tests (tests, not proofs): the inputs and expected trees and messages of the
    repository's own parser tests ([check_parse] in grammar/twig/expression.rs, grammar/twig/literal.rs), run on the model.
    Generated from the test modules. *)
From Coq Require Import List NArith String Bool.
Import ListNotations.
From Verif Require Import Text Kind Lexer ParserApi Machine Render.
Local Open Scope string_scope.
Local Open Scope list_scope.


(** grammar/twig/expression.rs:346 *)
Definition t_expression_346 : ptest :=
  (txt "{{ }}",
   Node ROOT [Node TWIG_VAR [Leaf TK_OPEN_CURLY_CURLY (txt "{{"); Leaf TK_WHITESPACE (txt " "); Leaf TK_CLOSE_CURLY_CURLY (txt "}}")]],
   [txt "error at 3..5: expected twig expression but found }}"]).

(** grammar/twig/expression.rs:360 *)
Definition t_expression_360 : ptest :=
  (txt "{{ 1 }}",
   Node ROOT [Node TWIG_VAR [Leaf TK_OPEN_CURLY_CURLY (txt "{{"); Node TWIG_EXPRESSION [Node TWIG_LITERAL_NUMBER [Leaf TK_WHITESPACE (txt " "); Leaf TK_NUMBER (txt "1")]]; Leaf TK_WHITESPACE (txt " "); Leaf TK_CLOSE_CURLY_CURLY (txt "}}")]],
   []).

(** grammar/twig/expression.rs:377 *)
Definition t_expression_377 : ptest :=
  (txt "{{ 1 + 2 }}",
   Node ROOT [Node TWIG_VAR [Leaf TK_OPEN_CURLY_CURLY (txt "{{"); Node TWIG_EXPRESSION [Node TWIG_BINARY_EXPRESSION [Node TWIG_EXPRESSION [Node TWIG_LITERAL_NUMBER [Leaf TK_WHITESPACE (txt " "); Leaf TK_NUMBER (txt "1")]]; Leaf TK_WHITESPACE (txt " "); Leaf TK_PLUS (txt "+"); Node TWIG_EXPRESSION [Node TWIG_LITERAL_NUMBER [Leaf TK_WHITESPACE (txt " "); Leaf TK_NUMBER (txt "2")]]]]; Leaf TK_WHITESPACE (txt " "); Leaf TK_CLOSE_CURLY_CURLY (txt "}}")]],
   []).

(** grammar/twig/expression.rs:402 *)
Definition t_expression_402 : ptest :=
  (txt "{{ 1 + 2 * 3 }}",
   Node ROOT [Node TWIG_VAR [Leaf TK_OPEN_CURLY_CURLY (txt "{{"); Node TWIG_EXPRESSION [Node TWIG_BINARY_EXPRESSION [Node TWIG_EXPRESSION [Node TWIG_LITERAL_NUMBER [Leaf TK_WHITESPACE (txt " "); Leaf TK_NUMBER (txt "1")]]; Leaf TK_WHITESPACE (txt " "); Leaf TK_PLUS (txt "+"); Node TWIG_EXPRESSION [Node TWIG_BINARY_EXPRESSION [Node TWIG_EXPRESSION [Node TWIG_LITERAL_NUMBER [Leaf TK_WHITESPACE (txt " "); Leaf TK_NUMBER (txt "2")]]; Leaf TK_WHITESPACE (txt " "); Leaf TK_STAR (txt "*"); Node TWIG_EXPRESSION [Node TWIG_LITERAL_NUMBER [Leaf TK_WHITESPACE (txt " "); Leaf TK_NUMBER (txt "3")]]]]]]; Leaf TK_WHITESPACE (txt " "); Leaf TK_CLOSE_CURLY_CURLY (txt "}}")]],
   []).

(** grammar/twig/expression.rs:435 *)
Definition t_expression_435 : ptest :=
  (txt "{{ (1 + 2) * 3 }}",
   Node ROOT [Node TWIG_VAR [Leaf TK_OPEN_CURLY_CURLY (txt "{{"); Node TWIG_EXPRESSION [Node TWIG_BINARY_EXPRESSION [Node TWIG_EXPRESSION [Node TWIG_PARENTHESES_EXPRESSION [Leaf TK_WHITESPACE (txt " "); Leaf TK_OPEN_PARENTHESIS (txt "("); Node TWIG_EXPRESSION [Node TWIG_BINARY_EXPRESSION [Node TWIG_EXPRESSION [Node TWIG_LITERAL_NUMBER [Leaf TK_NUMBER (txt "1")]]; Leaf TK_WHITESPACE (txt " "); Leaf TK_PLUS (txt "+"); Node TWIG_EXPRESSION [Node TWIG_LITERAL_NUMBER [Leaf TK_WHITESPACE (txt " "); Leaf TK_NUMBER (txt "2")]]]]; Leaf TK_CLOSE_PARENTHESIS (txt ")")]]; Leaf TK_WHITESPACE (txt " "); Leaf TK_STAR (txt "*"); Node TWIG_EXPRESSION [Node TWIG_LITERAL_NUMBER [Leaf TK_WHITESPACE (txt " "); Leaf TK_NUMBER (txt "3")]]]]; Leaf TK_WHITESPACE (txt " "); Leaf TK_CLOSE_CURLY_CURLY (txt "}}")]],
   []).

(** grammar/twig/expression.rs:472 *)
Definition t_expression_472 : ptest :=
  (txt "{{ a >= b + 1 }}",
   Node ROOT [Node TWIG_VAR [Leaf TK_OPEN_CURLY_CURLY (txt "{{"); Node TWIG_EXPRESSION [Node TWIG_BINARY_EXPRESSION [Node TWIG_EXPRESSION [Node TWIG_LITERAL_NAME [Leaf TK_WHITESPACE (txt " "); Leaf TK_WORD (txt "a")]]; Leaf TK_WHITESPACE (txt " "); Leaf TK_GREATER_THAN_EQUAL (txt ">="); Node TWIG_EXPRESSION [Node TWIG_BINARY_EXPRESSION [Node TWIG_EXPRESSION [Node TWIG_LITERAL_NAME [Leaf TK_WHITESPACE (txt " "); Leaf TK_WORD (txt "b")]]; Leaf TK_WHITESPACE (txt " "); Leaf TK_PLUS (txt "+"); Node TWIG_EXPRESSION [Node TWIG_LITERAL_NUMBER [Leaf TK_WHITESPACE (txt " "); Leaf TK_NUMBER (txt "1")]]]]]]; Leaf TK_WHITESPACE (txt " "); Leaf TK_CLOSE_CURLY_CURLY (txt "}}")]],
   []).

(** grammar/twig/expression.rs:505 *)
Definition t_expression_505 : ptest :=
  (txt "{{ not a }}",
   Node ROOT [Node TWIG_VAR [Leaf TK_OPEN_CURLY_CURLY (txt "{{"); Node TWIG_EXPRESSION [Node TWIG_UNARY_EXPRESSION [Leaf TK_WHITESPACE (txt " "); Leaf TK_NOT (txt "not"); Node TWIG_EXPRESSION [Node TWIG_LITERAL_NAME [Leaf TK_WHITESPACE (txt " "); Leaf TK_WORD (txt "a")]]]]; Leaf TK_WHITESPACE (txt " "); Leaf TK_CLOSE_CURLY_CURLY (txt "}}")]],
   []).

(** grammar/twig/expression.rs:526 *)
Definition t_expression_526 : ptest :=
  (txt "{{ a is odd }}",
   Node ROOT [Node TWIG_VAR [Leaf TK_OPEN_CURLY_CURLY (txt "{{"); Node TWIG_EXPRESSION [Node TWIG_BINARY_EXPRESSION [Node TWIG_EXPRESSION [Node TWIG_LITERAL_NAME [Leaf TK_WHITESPACE (txt " "); Leaf TK_WORD (txt "a")]]; Leaf TK_WHITESPACE (txt " "); Leaf TK_IS (txt "is"); Node TWIG_EXPRESSION [Node TWIG_LITERAL_NAME [Leaf TK_WHITESPACE (txt " "); Leaf TK_WORD (txt "odd")]]]]; Leaf TK_WHITESPACE (txt " "); Leaf TK_CLOSE_CURLY_CURLY (txt "}}")]],
   []).

(** grammar/twig/expression.rs:551 *)
Definition t_expression_551 : ptest :=
  (txt "{{ 'hello ' ~ name ~ ' to the world of ' ~ world }}",
   Node ROOT [Node TWIG_VAR [Leaf TK_OPEN_CURLY_CURLY (txt "{{"); Node TWIG_EXPRESSION [Node TWIG_BINARY_EXPRESSION [Node TWIG_BINARY_EXPRESSION [Node TWIG_BINARY_EXPRESSION [Node TWIG_EXPRESSION [Node TWIG_LITERAL_STRING [Leaf TK_WHITESPACE (txt " "); Leaf TK_SINGLE_QUOTES (txt "'"); Node TWIG_LITERAL_STRING_INNER [Leaf TK_WORD (txt "hello"); Leaf TK_WHITESPACE (txt " ")]; Leaf TK_SINGLE_QUOTES (txt "'")]]; Leaf TK_WHITESPACE (txt " "); Leaf TK_TILDE (txt "~"); Node TWIG_EXPRESSION [Node TWIG_LITERAL_NAME [Leaf TK_WHITESPACE (txt " "); Leaf TK_WORD (txt "name")]]]; Leaf TK_WHITESPACE (txt " "); Leaf TK_TILDE (txt "~"); Node TWIG_EXPRESSION [Node TWIG_LITERAL_STRING [Leaf TK_WHITESPACE (txt " "); Leaf TK_SINGLE_QUOTES (txt "'"); Node TWIG_LITERAL_STRING_INNER [Leaf TK_WHITESPACE (txt " "); Leaf TK_WORD (txt "to"); Leaf TK_WHITESPACE (txt " "); Leaf TK_WORD (txt "the"); Leaf TK_WHITESPACE (txt " "); Leaf TK_WORD (txt "world"); Leaf TK_WHITESPACE (txt " "); Leaf TK_WORD (txt "of"); Leaf TK_WHITESPACE (txt " ")]; Leaf TK_SINGLE_QUOTES (txt "'")]]]; Leaf TK_WHITESPACE (txt " "); Leaf TK_TILDE (txt "~"); Node TWIG_EXPRESSION [Node TWIG_LITERAL_NAME [Leaf TK_WHITESPACE (txt " "); Leaf TK_WORD (txt "world")]]]]; Leaf TK_WHITESPACE (txt " "); Leaf TK_CLOSE_CURLY_CURLY (txt "}}")]],
   []).

(** grammar/twig/expression.rs:605 *)
Definition t_expression_605 : ptest :=
  (txt "{{ not a is not even }}",
   Node ROOT [Node TWIG_VAR [Leaf TK_OPEN_CURLY_CURLY (txt "{{"); Node TWIG_EXPRESSION [Node TWIG_UNARY_EXPRESSION [Leaf TK_WHITESPACE (txt " "); Leaf TK_NOT (txt "not"); Node TWIG_EXPRESSION [Node TWIG_BINARY_EXPRESSION [Node TWIG_EXPRESSION [Node TWIG_LITERAL_NAME [Leaf TK_WHITESPACE (txt " "); Leaf TK_WORD (txt "a")]]; Leaf TK_WHITESPACE (txt " "); Leaf TK_IS_NOT (txt "is not"); Node TWIG_EXPRESSION [Node TWIG_LITERAL_NAME [Leaf TK_WHITESPACE (txt " "); Leaf TK_WORD (txt "even")]]]]]]; Leaf TK_WHITESPACE (txt " "); Leaf TK_CLOSE_CURLY_CURLY (txt "}}")]],
   []).

(** grammar/twig/expression.rs:634 *)
Definition t_expression_634 : ptest :=
  (txt "{{ not a not in [false] }}",
   Node ROOT [Node TWIG_VAR [Leaf TK_OPEN_CURLY_CURLY (txt "{{"); Node TWIG_EXPRESSION [Node TWIG_BINARY_EXPRESSION [Node TWIG_EXPRESSION [Node TWIG_UNARY_EXPRESSION [Leaf TK_WHITESPACE (txt " "); Leaf TK_NOT (txt "not"); Node TWIG_EXPRESSION [Node TWIG_LITERAL_NAME [Leaf TK_WHITESPACE (txt " "); Leaf TK_WORD (txt "a")]]]]; Leaf TK_WHITESPACE (txt " "); Leaf TK_NOT_IN (txt "not in"); Node TWIG_EXPRESSION [Node TWIG_LITERAL_ARRAY [Leaf TK_WHITESPACE (txt " "); Leaf TK_OPEN_SQUARE (txt "["); Node TWIG_LITERAL_ARRAY_INNER [Node TWIG_EXPRESSION [Node TWIG_LITERAL_BOOLEAN [Leaf TK_FALSE (txt "false")]]]; Leaf TK_CLOSE_SQUARE (txt "]")]]]]; Leaf TK_WHITESPACE (txt " "); Leaf TK_CLOSE_CURLY_CURLY (txt "}}")]],
   []).

(** grammar/twig/expression.rs:668 *)
Definition t_expression_668 : ptest :=
  (txt "{{ a not in [1] }}",
   Node ROOT [Node TWIG_VAR [Leaf TK_OPEN_CURLY_CURLY (txt "{{"); Node TWIG_EXPRESSION [Node TWIG_BINARY_EXPRESSION [Node TWIG_EXPRESSION [Node TWIG_LITERAL_NAME [Leaf TK_WHITESPACE (txt " "); Leaf TK_WORD (txt "a")]]; Leaf TK_WHITESPACE (txt " "); Leaf TK_NOT_IN (txt "not in"); Node TWIG_EXPRESSION [Node TWIG_LITERAL_ARRAY [Leaf TK_WHITESPACE (txt " "); Leaf TK_OPEN_SQUARE (txt "["); Node TWIG_LITERAL_ARRAY_INNER [Node TWIG_EXPRESSION [Node TWIG_LITERAL_NUMBER [Leaf TK_NUMBER (txt "1")]]]; Leaf TK_CLOSE_SQUARE (txt "]")]]]]; Leaf TK_WHITESPACE (txt " "); Leaf TK_CLOSE_CURLY_CURLY (txt "}}")]],
   []).

(** grammar/twig/expression.rs:698 *)
Definition t_expression_698 : ptest :=
  (txt "{{ not initialCountryId }}",
   Node ROOT [Node TWIG_VAR [Leaf TK_OPEN_CURLY_CURLY (txt "{{"); Node TWIG_EXPRESSION [Node TWIG_UNARY_EXPRESSION [Leaf TK_WHITESPACE (txt " "); Leaf TK_NOT (txt "not"); Node TWIG_EXPRESSION [Node TWIG_LITERAL_NAME [Leaf TK_WHITESPACE (txt " "); Leaf TK_WORD (txt "initialCountryId")]]]]; Leaf TK_WHITESPACE (txt " "); Leaf TK_CLOSE_CURLY_CURLY (txt "}}")]],
   []).

(** grammar/twig/expression.rs:719 *)
Definition t_expression_719 : ptest :=
  (txt "{{ -n not in [1] }}",
   Node ROOT [Node TWIG_VAR [Leaf TK_OPEN_CURLY_CURLY (txt "{{"); Node TWIG_EXPRESSION [Node TWIG_BINARY_EXPRESSION [Node TWIG_EXPRESSION [Node TWIG_UNARY_EXPRESSION [Leaf TK_WHITESPACE (txt " "); Leaf TK_MINUS (txt "-"); Node TWIG_EXPRESSION [Node TWIG_LITERAL_NAME [Leaf TK_WORD (txt "n")]]]]; Leaf TK_WHITESPACE (txt " "); Leaf TK_NOT_IN (txt "not in"); Node TWIG_EXPRESSION [Node TWIG_LITERAL_ARRAY [Leaf TK_WHITESPACE (txt " "); Leaf TK_OPEN_SQUARE (txt "["); Node TWIG_LITERAL_ARRAY_INNER [Node TWIG_EXPRESSION [Node TWIG_LITERAL_NUMBER [Leaf TK_NUMBER (txt "1")]]]; Leaf TK_CLOSE_SQUARE (txt "]")]]]]; Leaf TK_WHITESPACE (txt " "); Leaf TK_CLOSE_CURLY_CURLY (txt "}}")]],
   []).

(** grammar/twig/expression.rs:752 *)
Definition t_expression_752 : ptest :=
  (txt "{{ not a == b }}",
   Node ROOT [Node TWIG_VAR [Leaf TK_OPEN_CURLY_CURLY (txt "{{"); Node TWIG_EXPRESSION [Node TWIG_BINARY_EXPRESSION [Node TWIG_EXPRESSION [Node TWIG_UNARY_EXPRESSION [Leaf TK_WHITESPACE (txt " "); Leaf TK_NOT (txt "not"); Node TWIG_EXPRESSION [Node TWIG_LITERAL_NAME [Leaf TK_WHITESPACE (txt " "); Leaf TK_WORD (txt "a")]]]]; Leaf TK_WHITESPACE (txt " "); Leaf TK_DOUBLE_EQUAL (txt "=="); Node TWIG_EXPRESSION [Node TWIG_LITERAL_NAME [Leaf TK_WHITESPACE (txt " "); Leaf TK_WORD (txt "b")]]]]; Leaf TK_WHITESPACE (txt " "); Leaf TK_CLOSE_CURLY_CURLY (txt "}}")]],
   []).

(** grammar/twig/expression.rs:781 *)
Definition t_expression_781 : ptest :=
  (txt "{{ not a === b }}",
   Node ROOT [Node TWIG_VAR [Leaf TK_OPEN_CURLY_CURLY (txt "{{"); Node TWIG_EXPRESSION [Node TWIG_BINARY_EXPRESSION [Node TWIG_EXPRESSION [Node TWIG_UNARY_EXPRESSION [Leaf TK_WHITESPACE (txt " "); Leaf TK_NOT (txt "not"); Node TWIG_EXPRESSION [Node TWIG_LITERAL_NAME [Leaf TK_WHITESPACE (txt " "); Leaf TK_WORD (txt "a")]]]]; Leaf TK_WHITESPACE (txt " "); Leaf TK_TRIPLE_EQUAL (txt "==="); Node TWIG_EXPRESSION [Node TWIG_LITERAL_NAME [Leaf TK_WHITESPACE (txt " "); Leaf TK_WORD (txt "b")]]]]; Leaf TK_WHITESPACE (txt " "); Leaf TK_CLOSE_CURLY_CURLY (txt "}}")]],
   []).

(** grammar/twig/expression.rs:810 *)
Definition t_expression_810 : ptest :=
  (txt "{{ a > b ? 'Y' : 'N' }}",
   Node ROOT [Node TWIG_VAR [Leaf TK_OPEN_CURLY_CURLY (txt "{{"); Node TWIG_EXPRESSION [Node TWIG_CONDITIONAL_EXPRESSION [Node TWIG_EXPRESSION [Node TWIG_BINARY_EXPRESSION [Node TWIG_EXPRESSION [Node TWIG_LITERAL_NAME [Leaf TK_WHITESPACE (txt " "); Leaf TK_WORD (txt "a")]]; Leaf TK_WHITESPACE (txt " "); Leaf TK_GREATER_THAN (txt ">"); Node TWIG_EXPRESSION [Node TWIG_LITERAL_NAME [Leaf TK_WHITESPACE (txt " "); Leaf TK_WORD (txt "b")]]]]; Leaf TK_WHITESPACE (txt " "); Leaf TK_QUESTION_MARK (txt "?"); Node TWIG_EXPRESSION [Node TWIG_LITERAL_STRING [Leaf TK_WHITESPACE (txt " "); Leaf TK_SINGLE_QUOTES (txt "'"); Node TWIG_LITERAL_STRING_INNER [Leaf TK_WORD (txt "Y")]; Leaf TK_SINGLE_QUOTES (txt "'")]]; Leaf TK_WHITESPACE (txt " "); Leaf TK_COLON (txt ":"); Node TWIG_EXPRESSION [Node TWIG_LITERAL_STRING [Leaf TK_WHITESPACE (txt " "); Leaf TK_SINGLE_QUOTES (txt "'"); Node TWIG_LITERAL_STRING_INNER [Leaf TK_WORD (txt "N")]; Leaf TK_SINGLE_QUOTES (txt "'")]]]]; Leaf TK_WHITESPACE (txt " "); Leaf TK_CLOSE_CURLY_CURLY (txt "}}")]],
   []).

(** grammar/twig/expression.rs:856 *)
Definition t_expression_856 : ptest :=
  (txt "{{ a > b ? 'Y' }}",
   Node ROOT [Node TWIG_VAR [Leaf TK_OPEN_CURLY_CURLY (txt "{{"); Node TWIG_EXPRESSION [Node TWIG_CONDITIONAL_EXPRESSION [Node TWIG_EXPRESSION [Node TWIG_BINARY_EXPRESSION [Node TWIG_EXPRESSION [Node TWIG_LITERAL_NAME [Leaf TK_WHITESPACE (txt " "); Leaf TK_WORD (txt "a")]]; Leaf TK_WHITESPACE (txt " "); Leaf TK_GREATER_THAN (txt ">"); Node TWIG_EXPRESSION [Node TWIG_LITERAL_NAME [Leaf TK_WHITESPACE (txt " "); Leaf TK_WORD (txt "b")]]]]; Leaf TK_WHITESPACE (txt " "); Leaf TK_QUESTION_MARK (txt "?"); Node TWIG_EXPRESSION [Node TWIG_LITERAL_STRING [Leaf TK_WHITESPACE (txt " "); Leaf TK_SINGLE_QUOTES (txt "'"); Node TWIG_LITERAL_STRING_INNER [Leaf TK_WORD (txt "Y")]; Leaf TK_SINGLE_QUOTES (txt "'")]]]]; Leaf TK_WHITESPACE (txt " "); Leaf TK_CLOSE_CURLY_CURLY (txt "}}")]],
   []).

(** grammar/twig/expression.rs:893 *)
Definition t_expression_893 : ptest :=
  (txt "{{ a > b ?: 'N' }}",
   Node ROOT [Node TWIG_VAR [Leaf TK_OPEN_CURLY_CURLY (txt "{{"); Node TWIG_EXPRESSION [Node TWIG_CONDITIONAL_EXPRESSION [Node TWIG_EXPRESSION [Node TWIG_BINARY_EXPRESSION [Node TWIG_EXPRESSION [Node TWIG_LITERAL_NAME [Leaf TK_WHITESPACE (txt " "); Leaf TK_WORD (txt "a")]]; Leaf TK_WHITESPACE (txt " "); Leaf TK_GREATER_THAN (txt ">"); Node TWIG_EXPRESSION [Node TWIG_LITERAL_NAME [Leaf TK_WHITESPACE (txt " "); Leaf TK_WORD (txt "b")]]]]; Leaf TK_WHITESPACE (txt " "); Leaf TK_QUESTION_MARK (txt "?"); Leaf TK_COLON (txt ":"); Node TWIG_EXPRESSION [Node TWIG_LITERAL_STRING [Leaf TK_WHITESPACE (txt " "); Leaf TK_SINGLE_QUOTES (txt "'"); Node TWIG_LITERAL_STRING_INNER [Leaf TK_WORD (txt "N")]; Leaf TK_SINGLE_QUOTES (txt "'")]]]]; Leaf TK_WHITESPACE (txt " "); Leaf TK_CLOSE_CURLY_CURLY (txt "}}")]],
   []).

(** grammar/twig/expression.rs:930 *)
Definition t_expression_930 : ptest :=
  (txt "{{ a > b ? 'N' : }}",
   Node ROOT [Node TWIG_VAR [Leaf TK_OPEN_CURLY_CURLY (txt "{{"); Node TWIG_EXPRESSION [Node TWIG_CONDITIONAL_EXPRESSION [Node TWIG_EXPRESSION [Node TWIG_BINARY_EXPRESSION [Node TWIG_EXPRESSION [Node TWIG_LITERAL_NAME [Leaf TK_WHITESPACE (txt " "); Leaf TK_WORD (txt "a")]]; Leaf TK_WHITESPACE (txt " "); Leaf TK_GREATER_THAN (txt ">"); Node TWIG_EXPRESSION [Node TWIG_LITERAL_NAME [Leaf TK_WHITESPACE (txt " "); Leaf TK_WORD (txt "b")]]]]; Leaf TK_WHITESPACE (txt " "); Leaf TK_QUESTION_MARK (txt "?"); Node TWIG_EXPRESSION [Node TWIG_LITERAL_STRING [Leaf TK_WHITESPACE (txt " "); Leaf TK_SINGLE_QUOTES (txt "'"); Node TWIG_LITERAL_STRING_INNER [Leaf TK_WORD (txt "N")]; Leaf TK_SINGLE_QUOTES (txt "'")]]; Leaf TK_WHITESPACE (txt " "); Leaf TK_COLON (txt ":")]]; Leaf TK_WHITESPACE (txt " "); Leaf TK_CLOSE_CURLY_CURLY (txt "}}")]],
   [txt "error at 17..19: expected twig expression but found }}"]).

(** grammar/twig/expression.rs:969 *)
Definition t_expression_969 : ptest :=
  (txt "{{ a > b ? }}",
   Node ROOT [Node TWIG_VAR [Leaf TK_OPEN_CURLY_CURLY (txt "{{"); Node TWIG_EXPRESSION [Node TWIG_CONDITIONAL_EXPRESSION [Node TWIG_EXPRESSION [Node TWIG_BINARY_EXPRESSION [Node TWIG_EXPRESSION [Node TWIG_LITERAL_NAME [Leaf TK_WHITESPACE (txt " "); Leaf TK_WORD (txt "a")]]; Leaf TK_WHITESPACE (txt " "); Leaf TK_GREATER_THAN (txt ">"); Node TWIG_EXPRESSION [Node TWIG_LITERAL_NAME [Leaf TK_WHITESPACE (txt " "); Leaf TK_WORD (txt "b")]]]]; Leaf TK_WHITESPACE (txt " "); Leaf TK_QUESTION_MARK (txt "?")]]; Leaf TK_WHITESPACE (txt " "); Leaf TK_CLOSE_CURLY_CURLY (txt "}}")]],
   [txt "error at 11..13: expected twig expression or ':' but found }}"]).

(** grammar/twig/expression.rs:999 *)
Definition t_expression_999 : ptest :=
  (txt "{{ a ? b ? 'B' : 'N' }}",
   Node ROOT [Node TWIG_VAR [Leaf TK_OPEN_CURLY_CURLY (txt "{{"); Node TWIG_EXPRESSION [Node TWIG_CONDITIONAL_EXPRESSION [Node TWIG_EXPRESSION [Node TWIG_LITERAL_NAME [Leaf TK_WHITESPACE (txt " "); Leaf TK_WORD (txt "a")]]; Leaf TK_WHITESPACE (txt " "); Leaf TK_QUESTION_MARK (txt "?"); Node TWIG_EXPRESSION [Node TWIG_CONDITIONAL_EXPRESSION [Node TWIG_EXPRESSION [Node TWIG_LITERAL_NAME [Leaf TK_WHITESPACE (txt " "); Leaf TK_WORD (txt "b")]]; Leaf TK_WHITESPACE (txt " "); Leaf TK_QUESTION_MARK (txt "?"); Node TWIG_EXPRESSION [Node TWIG_LITERAL_STRING [Leaf TK_WHITESPACE (txt " "); Leaf TK_SINGLE_QUOTES (txt "'"); Node TWIG_LITERAL_STRING_INNER [Leaf TK_WORD (txt "B")]; Leaf TK_SINGLE_QUOTES (txt "'")]]; Leaf TK_WHITESPACE (txt " "); Leaf TK_COLON (txt ":"); Node TWIG_EXPRESSION [Node TWIG_LITERAL_STRING [Leaf TK_WHITESPACE (txt " "); Leaf TK_SINGLE_QUOTES (txt "'"); Node TWIG_LITERAL_STRING_INNER [Leaf TK_WORD (txt "N")]; Leaf TK_SINGLE_QUOTES (txt "'")]]]]]]; Leaf TK_WHITESPACE (txt " "); Leaf TK_CLOSE_CURLY_CURLY (txt "}}")]],
   []).

(** grammar/twig/expression.rs:1044 *)
Definition t_expression_1044 : ptest :=
  (txt "{{ block(""footer"", ""common_blocks.twig"") is defined }}",
   Node ROOT [Node TWIG_VAR [Leaf TK_OPEN_CURLY_CURLY (txt "{{"); Node TWIG_EXPRESSION [Node TWIG_BINARY_EXPRESSION [Node TWIG_EXPRESSION [Node TWIG_FUNCTION_CALL [Node TWIG_OPERAND [Node TWIG_LITERAL_NAME [Leaf TK_WHITESPACE (txt " "); Leaf TK_WORD (txt "block")]]; Node TWIG_ARGUMENTS [Leaf TK_OPEN_PARENTHESIS (txt "("); Node TWIG_EXPRESSION [Node TWIG_LITERAL_STRING [Leaf TK_DOUBLE_QUOTES (txt """"); Node TWIG_LITERAL_STRING_INNER [Leaf TK_WORD (txt "footer")]; Leaf TK_DOUBLE_QUOTES (txt """")]]; Leaf TK_COMMA (txt ","); Node TWIG_EXPRESSION [Node TWIG_LITERAL_STRING [Leaf TK_WHITESPACE (txt " "); Leaf TK_DOUBLE_QUOTES (txt """"); Node TWIG_LITERAL_STRING_INNER [Leaf TK_WORD (txt "common_blocks"); Leaf TK_DOT (txt "."); Leaf TK_WORD (txt "twig")]; Leaf TK_DOUBLE_QUOTES (txt """")]]; Leaf TK_CLOSE_PARENTHESIS (txt ")")]]]; Leaf TK_WHITESPACE (txt " "); Leaf TK_IS (txt "is"); Node TWIG_EXPRESSION [Node TWIG_LITERAL_NAME [Leaf TK_WHITESPACE (txt " "); Leaf TK_WORD (txt "defined")]]]]; Leaf TK_WHITESPACE (txt " "); Leaf TK_CLOSE_CURLY_CURLY (txt "}}")]],
   []).

(** grammar/twig/expression.rs:1090 *)
Definition t_expression_1090 : ptest :=
  (txt "{{ var is even }}",
   Node ROOT [Node TWIG_VAR [Leaf TK_OPEN_CURLY_CURLY (txt "{{"); Node TWIG_EXPRESSION [Node TWIG_BINARY_EXPRESSION [Node TWIG_EXPRESSION [Node TWIG_LITERAL_NAME [Leaf TK_WHITESPACE (txt " "); Leaf TK_WORD (txt "var")]]; Leaf TK_WHITESPACE (txt " "); Leaf TK_IS (txt "is"); Node TWIG_EXPRESSION [Node TWIG_LITERAL_NAME [Leaf TK_WHITESPACE (txt " "); Leaf TK_WORD (txt "even")]]]]; Leaf TK_WHITESPACE (txt " "); Leaf TK_CLOSE_CURLY_CURLY (txt "}}")]],
   []).

(** grammar/twig/expression.rs:1115 *)
Definition t_expression_1115 : ptest :=
  (txt "{{ foo.attribute is same as(false) }}",
   Node ROOT [Node TWIG_VAR [Leaf TK_OPEN_CURLY_CURLY (txt "{{"); Node TWIG_EXPRESSION [Node TWIG_BINARY_EXPRESSION [Node TWIG_EXPRESSION [Node TWIG_ACCESSOR [Node TWIG_OPERAND [Node TWIG_LITERAL_NAME [Leaf TK_WHITESPACE (txt " "); Leaf TK_WORD (txt "foo")]]; Leaf TK_DOT (txt "."); Node TWIG_OPERAND [Node TWIG_LITERAL_NAME [Leaf TK_WORD (txt "attribute")]]]]; Leaf TK_WHITESPACE (txt " "); Leaf TK_IS (txt "is"); Node TWIG_EXPRESSION [Node TWIG_FUNCTION_CALL [Node TWIG_OPERAND [Node TWIG_LITERAL_NAME [Leaf TK_WHITESPACE (txt " "); Leaf TK_WORD (txt "same as")]]; Node TWIG_ARGUMENTS [Leaf TK_OPEN_PARENTHESIS (txt "("); Node TWIG_EXPRESSION [Node TWIG_LITERAL_BOOLEAN [Leaf TK_FALSE (txt "false")]]; Leaf TK_CLOSE_PARENTHESIS (txt ")")]]]]]; Leaf TK_WHITESPACE (txt " "); Leaf TK_CLOSE_CURLY_CURLY (txt "}}")]],
   []).

(** grammar/twig/expression.rs:1154 *)
Definition t_expression_1154 : ptest :=
  (txt "{{ isBlue }}",
   Node ROOT [Node TWIG_VAR [Leaf TK_OPEN_CURLY_CURLY (txt "{{"); Node TWIG_EXPRESSION [Node TWIG_LITERAL_NAME [Leaf TK_WHITESPACE (txt " "); Leaf TK_WORD (txt "isBlue")]]; Leaf TK_WHITESPACE (txt " "); Leaf TK_CLOSE_CURLY_CURLY (txt "}}")]],
   []).

(** grammar/twig/expression.rs:1171 *)
Definition t_expression_1171 : ptest :=
  (txt "{{ blue is notRed }}",
   Node ROOT [Node TWIG_VAR [Leaf TK_OPEN_CURLY_CURLY (txt "{{"); Node TWIG_EXPRESSION [Node TWIG_BINARY_EXPRESSION [Node TWIG_EXPRESSION [Node TWIG_LITERAL_NAME [Leaf TK_WHITESPACE (txt " "); Leaf TK_WORD (txt "blue")]]; Leaf TK_WHITESPACE (txt " "); Leaf TK_IS (txt "is"); Node TWIG_EXPRESSION [Node TWIG_LITERAL_NAME [Leaf TK_WHITESPACE (txt " "); Leaf TK_WORD (txt "notRed")]]]]; Leaf TK_WHITESPACE (txt " "); Leaf TK_CLOSE_CURLY_CURLY (txt "}}")]],
   []).

(** grammar/twig/expression.rs:1196 *)
Definition t_expression_1196 : ptest :=
  (txt "{{ notRed }}",
   Node ROOT [Node TWIG_VAR [Leaf TK_OPEN_CURLY_CURLY (txt "{{"); Node TWIG_EXPRESSION [Node TWIG_LITERAL_NAME [Leaf TK_WHITESPACE (txt " "); Leaf TK_WORD (txt "notRed")]]; Leaf TK_WHITESPACE (txt " "); Leaf TK_CLOSE_CURLY_CURLY (txt "}}")]],
   []).

(** grammar/twig/expression.rs:1213 *)
Definition t_expression_1213 : ptest :=
  (txt "{{ foo.attribute is divisible by(false) }}",
   Node ROOT [Node TWIG_VAR [Leaf TK_OPEN_CURLY_CURLY (txt "{{"); Node TWIG_EXPRESSION [Node TWIG_BINARY_EXPRESSION [Node TWIG_EXPRESSION [Node TWIG_ACCESSOR [Node TWIG_OPERAND [Node TWIG_LITERAL_NAME [Leaf TK_WHITESPACE (txt " "); Leaf TK_WORD (txt "foo")]]; Leaf TK_DOT (txt "."); Node TWIG_OPERAND [Node TWIG_LITERAL_NAME [Leaf TK_WORD (txt "attribute")]]]]; Leaf TK_WHITESPACE (txt " "); Leaf TK_IS (txt "is"); Node TWIG_EXPRESSION [Node TWIG_FUNCTION_CALL [Node TWIG_OPERAND [Node TWIG_LITERAL_NAME [Leaf TK_WHITESPACE (txt " "); Leaf TK_WORD (txt "divisible by")]]; Node TWIG_ARGUMENTS [Leaf TK_OPEN_PARENTHESIS (txt "("); Node TWIG_EXPRESSION [Node TWIG_LITERAL_BOOLEAN [Leaf TK_FALSE (txt "false")]]; Leaf TK_CLOSE_PARENTHESIS (txt ")")]]]]]; Leaf TK_WHITESPACE (txt " "); Leaf TK_CLOSE_CURLY_CURLY (txt "}}")]],
   []).

(** grammar/twig/expression.rs:1252 *)
Definition t_expression_1252 : ptest :=
  (txt "{{ foo is same as 0 }}",
   Node ROOT [Node TWIG_VAR [Leaf TK_OPEN_CURLY_CURLY (txt "{{"); Node TWIG_EXPRESSION [Node TWIG_BINARY_EXPRESSION [Node TWIG_EXPRESSION [Node TWIG_LITERAL_NAME [Leaf TK_WHITESPACE (txt " "); Leaf TK_WORD (txt "foo")]]; Leaf TK_WHITESPACE (txt " "); Leaf TK_IS (txt "is"); Node TWIG_EXPRESSION [Node TWIG_FUNCTION_CALL [Node TWIG_OPERAND [Node TWIG_LITERAL_NAME [Leaf TK_WHITESPACE (txt " "); Leaf TK_WORD (txt "same as")]]; Node TWIG_ARGUMENTS [Node TWIG_EXPRESSION [Node TWIG_LITERAL_NUMBER [Leaf TK_WHITESPACE (txt " "); Leaf TK_NUMBER (txt "0")]]]]]]]; Leaf TK_WHITESPACE (txt " "); Leaf TK_CLOSE_CURLY_CURLY (txt "}}")]],
   []).

(** grammar/twig/expression.rs:1284 *)
Definition t_expression_1284 : ptest :=
  (txt "{{ foo is same as bar }}",
   Node ROOT [Node TWIG_VAR [Leaf TK_OPEN_CURLY_CURLY (txt "{{"); Node TWIG_EXPRESSION [Node TWIG_BINARY_EXPRESSION [Node TWIG_EXPRESSION [Node TWIG_LITERAL_NAME [Leaf TK_WHITESPACE (txt " "); Leaf TK_WORD (txt "foo")]]; Leaf TK_WHITESPACE (txt " "); Leaf TK_IS (txt "is"); Node TWIG_EXPRESSION [Node TWIG_FUNCTION_CALL [Node TWIG_OPERAND [Node TWIG_LITERAL_NAME [Leaf TK_WHITESPACE (txt " "); Leaf TK_WORD (txt "same as")]]; Node TWIG_ARGUMENTS [Node TWIG_EXPRESSION [Node TWIG_LITERAL_NAME [Leaf TK_WHITESPACE (txt " "); Leaf TK_WORD (txt "bar")]]]]]]]; Leaf TK_WHITESPACE (txt " "); Leaf TK_CLOSE_CURLY_CURLY (txt "}}")]],
   []).

(** grammar/twig/expression.rs:1316 *)
Definition t_expression_1316 : ptest :=
  (txt "{{ foo is divisible by 3 }}",
   Node ROOT [Node TWIG_VAR [Leaf TK_OPEN_CURLY_CURLY (txt "{{"); Node TWIG_EXPRESSION [Node TWIG_BINARY_EXPRESSION [Node TWIG_EXPRESSION [Node TWIG_LITERAL_NAME [Leaf TK_WHITESPACE (txt " "); Leaf TK_WORD (txt "foo")]]; Leaf TK_WHITESPACE (txt " "); Leaf TK_IS (txt "is"); Node TWIG_EXPRESSION [Node TWIG_FUNCTION_CALL [Node TWIG_OPERAND [Node TWIG_LITERAL_NAME [Leaf TK_WHITESPACE (txt " "); Leaf TK_WORD (txt "divisible by")]]; Node TWIG_ARGUMENTS [Node TWIG_EXPRESSION [Node TWIG_LITERAL_NUMBER [Leaf TK_WHITESPACE (txt " "); Leaf TK_NUMBER (txt "3")]]]]]]]; Leaf TK_WHITESPACE (txt " "); Leaf TK_CLOSE_CURLY_CURLY (txt "}}")]],
   []).

(** grammar/twig/expression.rs:1348 *)
Definition t_expression_1348 : ptest :=
  (txt "{{ foo is not same as 0 }}",
   Node ROOT [Node TWIG_VAR [Leaf TK_OPEN_CURLY_CURLY (txt "{{"); Node TWIG_EXPRESSION [Node TWIG_BINARY_EXPRESSION [Node TWIG_EXPRESSION [Node TWIG_LITERAL_NAME [Leaf TK_WHITESPACE (txt " "); Leaf TK_WORD (txt "foo")]]; Leaf TK_WHITESPACE (txt " "); Leaf TK_IS_NOT (txt "is not"); Node TWIG_EXPRESSION [Node TWIG_FUNCTION_CALL [Node TWIG_OPERAND [Node TWIG_LITERAL_NAME [Leaf TK_WHITESPACE (txt " "); Leaf TK_WORD (txt "same as")]]; Node TWIG_ARGUMENTS [Node TWIG_EXPRESSION [Node TWIG_LITERAL_NUMBER [Leaf TK_WHITESPACE (txt " "); Leaf TK_NUMBER (txt "0")]]]]]]]; Leaf TK_WHITESPACE (txt " "); Leaf TK_CLOSE_CURLY_CURLY (txt "}}")]],
   []).

(** grammar/twig/expression.rs:1381 *)
Definition t_expression_1381 : ptest :=
  (txt "{{ -5|abs }}",
   Node ROOT [Node TWIG_VAR [Leaf TK_OPEN_CURLY_CURLY (txt "{{"); Node TWIG_EXPRESSION [Node TWIG_UNARY_EXPRESSION [Leaf TK_WHITESPACE (txt " "); Leaf TK_MINUS (txt "-"); Node TWIG_EXPRESSION [Node TWIG_FILTER [Node TWIG_OPERAND [Node TWIG_LITERAL_NUMBER [Leaf TK_NUMBER (txt "5")]]; Leaf TK_SINGLE_PIPE (txt "|"); Node TWIG_OPERAND [Node TWIG_LITERAL_NAME [Leaf TK_WORD (txt "abs")]]]]]]; Leaf TK_WHITESPACE (txt " "); Leaf TK_CLOSE_CURLY_CURLY (txt "}}")]],
   []).

(** grammar/twig/expression.rs:1408 *)
Definition t_expression_1408 : ptest :=
  (txt "{{ (-5)|abs }}",
   Node ROOT [Node TWIG_VAR [Leaf TK_OPEN_CURLY_CURLY (txt "{{"); Node TWIG_EXPRESSION [Node TWIG_FILTER [Node TWIG_OPERAND [Node TWIG_PARENTHESES_EXPRESSION [Leaf TK_WHITESPACE (txt " "); Leaf TK_OPEN_PARENTHESIS (txt "("); Node TWIG_EXPRESSION [Node TWIG_UNARY_EXPRESSION [Leaf TK_MINUS (txt "-"); Node TWIG_EXPRESSION [Node TWIG_LITERAL_NUMBER [Leaf TK_NUMBER (txt "5")]]]]; Leaf TK_CLOSE_PARENTHESIS (txt ")")]]; Leaf TK_SINGLE_PIPE (txt "|"); Node TWIG_OPERAND [Node TWIG_LITERAL_NAME [Leaf TK_WORD (txt "abs")]]]]; Leaf TK_WHITESPACE (txt " "); Leaf TK_CLOSE_CURLY_CURLY (txt "}}")]],
   []).

(** grammar/twig/expression.rs:1438 *)
Definition t_expression_1438 : ptest :=
  (txt "{{ ('a' ~ 'b')|trim }}",
   Node ROOT [Node TWIG_VAR [Leaf TK_OPEN_CURLY_CURLY (txt "{{"); Node TWIG_EXPRESSION [Node TWIG_FILTER [Node TWIG_OPERAND [Node TWIG_PARENTHESES_EXPRESSION [Leaf TK_WHITESPACE (txt " "); Leaf TK_OPEN_PARENTHESIS (txt "("); Node TWIG_EXPRESSION [Node TWIG_BINARY_EXPRESSION [Node TWIG_EXPRESSION [Node TWIG_LITERAL_STRING [Leaf TK_SINGLE_QUOTES (txt "'"); Node TWIG_LITERAL_STRING_INNER [Leaf TK_WORD (txt "a")]; Leaf TK_SINGLE_QUOTES (txt "'")]]; Leaf TK_WHITESPACE (txt " "); Leaf TK_TILDE (txt "~"); Node TWIG_EXPRESSION [Node TWIG_LITERAL_STRING [Leaf TK_WHITESPACE (txt " "); Leaf TK_SINGLE_QUOTES (txt "'"); Node TWIG_LITERAL_STRING_INNER [Leaf TK_WORD (txt "b")]; Leaf TK_SINGLE_QUOTES (txt "'")]]]]; Leaf TK_CLOSE_PARENTHESIS (txt ")")]]; Leaf TK_SINGLE_PIPE (txt "|"); Node TWIG_OPERAND [Node TWIG_LITERAL_NAME [Leaf TK_WORD (txt "trim")]]]]; Leaf TK_WHITESPACE (txt " "); Leaf TK_CLOSE_CURLY_CURLY (txt "}}")]],
   []).

(** grammar/twig/expression.rs:1479 *)
Definition t_expression_1479 : ptest :=
  (txt "{{ ('a' ~ 'b')|trim|escape }}",
   Node ROOT [Node TWIG_VAR [Leaf TK_OPEN_CURLY_CURLY (txt "{{"); Node TWIG_EXPRESSION [Node TWIG_FILTER [Node TWIG_OPERAND [Node TWIG_FILTER [Node TWIG_OPERAND [Node TWIG_PARENTHESES_EXPRESSION [Leaf TK_WHITESPACE (txt " "); Leaf TK_OPEN_PARENTHESIS (txt "("); Node TWIG_EXPRESSION [Node TWIG_BINARY_EXPRESSION [Node TWIG_EXPRESSION [Node TWIG_LITERAL_STRING [Leaf TK_SINGLE_QUOTES (txt "'"); Node TWIG_LITERAL_STRING_INNER [Leaf TK_WORD (txt "a")]; Leaf TK_SINGLE_QUOTES (txt "'")]]; Leaf TK_WHITESPACE (txt " "); Leaf TK_TILDE (txt "~"); Node TWIG_EXPRESSION [Node TWIG_LITERAL_STRING [Leaf TK_WHITESPACE (txt " "); Leaf TK_SINGLE_QUOTES (txt "'"); Node TWIG_LITERAL_STRING_INNER [Leaf TK_WORD (txt "b")]; Leaf TK_SINGLE_QUOTES (txt "'")]]]]; Leaf TK_CLOSE_PARENTHESIS (txt ")")]]; Leaf TK_SINGLE_PIPE (txt "|"); Node TWIG_OPERAND [Node TWIG_LITERAL_NAME [Leaf TK_WORD (txt "trim")]]]]; Leaf TK_SINGLE_PIPE (txt "|"); Node TWIG_OPERAND [Node TWIG_LITERAL_NAME [Leaf TK_WORD (txt "escape")]]]]; Leaf TK_WHITESPACE (txt " "); Leaf TK_CLOSE_CURLY_CURLY (txt "}}")]],
   []).

(** grammar/twig/expression.rs:1526 *)
Definition t_expression_1526 : ptest :=
  (txt "{{ thumbnails|first.width + 1 }}",
   Node ROOT [Node TWIG_VAR [Leaf TK_OPEN_CURLY_CURLY (txt "{{"); Node TWIG_EXPRESSION [Node TWIG_BINARY_EXPRESSION [Node TWIG_EXPRESSION [Node TWIG_ACCESSOR [Node TWIG_OPERAND [Node TWIG_FILTER [Node TWIG_OPERAND [Node TWIG_LITERAL_NAME [Leaf TK_WHITESPACE (txt " "); Leaf TK_WORD (txt "thumbnails")]]; Leaf TK_SINGLE_PIPE (txt "|"); Node TWIG_OPERAND [Node TWIG_LITERAL_NAME [Leaf TK_WORD (txt "first")]]]]; Leaf TK_DOT (txt "."); Node TWIG_OPERAND [Node TWIG_LITERAL_NAME [Leaf TK_WORD (txt "width")]]]]; Leaf TK_WHITESPACE (txt " "); Leaf TK_PLUS (txt "+"); Node TWIG_EXPRESSION [Node TWIG_LITERAL_NUMBER [Leaf TK_WHITESPACE (txt " "); Leaf TK_NUMBER (txt "1")]]]]; Leaf TK_WHITESPACE (txt " "); Leaf TK_CLOSE_CURLY_CURLY (txt "}}")]],
   []).

(** grammar/twig/expression.rs:1563 *)
Definition t_expression_1563 : ptest :=
  (txt "{{ [0, 1][0] }}",
   Node ROOT [Node TWIG_VAR [Leaf TK_OPEN_CURLY_CURLY (txt "{{"); Node TWIG_EXPRESSION [Node TWIG_INDEX_LOOKUP [Node TWIG_OPERAND [Node TWIG_LITERAL_ARRAY [Leaf TK_WHITESPACE (txt " "); Leaf TK_OPEN_SQUARE (txt "["); Node TWIG_LITERAL_ARRAY_INNER [Node TWIG_EXPRESSION [Node TWIG_LITERAL_NUMBER [Leaf TK_NUMBER (txt "0")]]; Leaf TK_COMMA (txt ","); Node TWIG_EXPRESSION [Node TWIG_LITERAL_NUMBER [Leaf TK_WHITESPACE (txt " "); Leaf TK_NUMBER (txt "1")]]]; Leaf TK_CLOSE_SQUARE (txt "]")]]; Leaf TK_OPEN_SQUARE (txt "["); Node TWIG_INDEX [Node TWIG_EXPRESSION [Node TWIG_LITERAL_NUMBER [Leaf TK_NUMBER (txt "0")]]]; Leaf TK_CLOSE_SQUARE (txt "]")]]; Leaf TK_WHITESPACE (txt " "); Leaf TK_CLOSE_CURLY_CURLY (txt "}}")]],
   []).

(** grammar/twig/expression.rs:1598 *)
Definition t_expression_1598 : ptest :=
  (txt "{% set value = (shippingMethod.media.translated.alt ?: shippingMethod.translated.name) %}",
   Node ROOT [Node TWIG_SET [Node TWIG_SET_BLOCK [Leaf TK_CURLY_PERCENT (txt "{%"); Leaf TK_WHITESPACE (txt " "); Leaf TK_SET (txt "set"); Node TWIG_ASSIGNMENT [Node TWIG_LITERAL_NAME [Leaf TK_WHITESPACE (txt " "); Leaf TK_WORD (txt "value")]; Leaf TK_WHITESPACE (txt " "); Leaf TK_EQUAL (txt "="); Node TWIG_EXPRESSION [Node TWIG_PARENTHESES_EXPRESSION [Leaf TK_WHITESPACE (txt " "); Leaf TK_OPEN_PARENTHESIS (txt "("); Node TWIG_EXPRESSION [Node TWIG_CONDITIONAL_EXPRESSION [Node TWIG_EXPRESSION [Node TWIG_ACCESSOR [Node TWIG_OPERAND [Node TWIG_ACCESSOR [Node TWIG_OPERAND [Node TWIG_ACCESSOR [Node TWIG_OPERAND [Node TWIG_LITERAL_NAME [Leaf TK_WORD (txt "shippingMethod")]]; Leaf TK_DOT (txt "."); Node TWIG_OPERAND [Node TWIG_LITERAL_NAME [Leaf TK_WORD (txt "media")]]]]; Leaf TK_DOT (txt "."); Node TWIG_OPERAND [Node TWIG_LITERAL_NAME [Leaf TK_WORD (txt "translated")]]]]; Leaf TK_DOT (txt "."); Node TWIG_OPERAND [Node TWIG_LITERAL_NAME [Leaf TK_WORD (txt "alt")]]]]; Leaf TK_WHITESPACE (txt " "); Leaf TK_QUESTION_MARK (txt "?"); Leaf TK_COLON (txt ":"); Node TWIG_EXPRESSION [Node TWIG_ACCESSOR [Node TWIG_OPERAND [Node TWIG_ACCESSOR [Node TWIG_OPERAND [Node TWIG_LITERAL_NAME [Leaf TK_WHITESPACE (txt " "); Leaf TK_WORD (txt "shippingMethod")]]; Leaf TK_DOT (txt "."); Node TWIG_OPERAND [Node TWIG_LITERAL_NAME [Leaf TK_WORD (txt "translated")]]]]; Leaf TK_DOT (txt "."); Node TWIG_OPERAND [Node TWIG_LITERAL_NAME [Leaf TK_WORD (txt "name")]]]]]]; Leaf TK_CLOSE_PARENTHESIS (txt ")")]]]; Leaf TK_WHITESPACE (txt " "); Leaf TK_PERCENT_CURLY (txt "%}")]]],
   []).

(** grammar/twig/expression.rs:1667 *)
Definition t_expression_1667 : ptest :=
  (txt "{% if (product.price + 1 > 1) %} okey {% endif %}",
   Node ROOT [Node TWIG_IF [Node TWIG_IF_BLOCK [Leaf TK_CURLY_PERCENT (txt "{%"); Leaf TK_WHITESPACE (txt " "); Leaf TK_IF (txt "if"); Node TWIG_EXPRESSION [Node TWIG_PARENTHESES_EXPRESSION [Leaf TK_WHITESPACE (txt " "); Leaf TK_OPEN_PARENTHESIS (txt "("); Node TWIG_EXPRESSION [Node TWIG_BINARY_EXPRESSION [Node TWIG_BINARY_EXPRESSION [Node TWIG_EXPRESSION [Node TWIG_ACCESSOR [Node TWIG_OPERAND [Node TWIG_LITERAL_NAME [Leaf TK_WORD (txt "product")]]; Leaf TK_DOT (txt "."); Node TWIG_OPERAND [Node TWIG_LITERAL_NAME [Leaf TK_WORD (txt "price")]]]]; Leaf TK_WHITESPACE (txt " "); Leaf TK_PLUS (txt "+"); Node TWIG_EXPRESSION [Node TWIG_LITERAL_NUMBER [Leaf TK_WHITESPACE (txt " "); Leaf TK_NUMBER (txt "1")]]]; Leaf TK_WHITESPACE (txt " "); Leaf TK_GREATER_THAN (txt ">"); Node TWIG_EXPRESSION [Node TWIG_LITERAL_NUMBER [Leaf TK_WHITESPACE (txt " "); Leaf TK_NUMBER (txt "1")]]]]; Leaf TK_CLOSE_PARENTHESIS (txt ")")]]; Leaf TK_WHITESPACE (txt " "); Leaf TK_PERCENT_CURLY (txt "%}")]; Node BODY [Node HTML_TEXT [Leaf TK_WHITESPACE (txt " "); Leaf TK_WORD (txt "okey")]]; Node TWIG_ENDIF_BLOCK [Leaf TK_WHITESPACE (txt " "); Leaf TK_CURLY_PERCENT (txt "{%"); Leaf TK_WHITESPACE (txt " "); Leaf TK_ENDIF (txt "endif"); Leaf TK_WHITESPACE (txt " "); Leaf TK_PERCENT_CURLY (txt "%}")]]],
   []).

(** grammar/twig/expression.rs:1723 *)
Definition t_expression_1723 : ptest :=
  (txt "{% set isDiscount = (not lineItem.good and lineItem.price.totalPrice <= 0) or lineItem.type == DISCOUNT_LINE_ITEM_TYPE %}",
   Node ROOT [Node TWIG_SET [Node TWIG_SET_BLOCK [Leaf TK_CURLY_PERCENT (txt "{%"); Leaf TK_WHITESPACE (txt " "); Leaf TK_SET (txt "set"); Node TWIG_ASSIGNMENT [Node TWIG_LITERAL_NAME [Leaf TK_WHITESPACE (txt " "); Leaf TK_WORD (txt "isDiscount")]; Leaf TK_WHITESPACE (txt " "); Leaf TK_EQUAL (txt "="); Node TWIG_EXPRESSION [Node TWIG_BINARY_EXPRESSION [Node TWIG_EXPRESSION [Node TWIG_PARENTHESES_EXPRESSION [Leaf TK_WHITESPACE (txt " "); Leaf TK_OPEN_PARENTHESIS (txt "("); Node TWIG_EXPRESSION [Node TWIG_BINARY_EXPRESSION [Node TWIG_EXPRESSION [Node TWIG_UNARY_EXPRESSION [Leaf TK_NOT (txt "not"); Node TWIG_EXPRESSION [Node TWIG_ACCESSOR [Node TWIG_OPERAND [Node TWIG_LITERAL_NAME [Leaf TK_WHITESPACE (txt " "); Leaf TK_WORD (txt "lineItem")]]; Leaf TK_DOT (txt "."); Node TWIG_OPERAND [Node TWIG_LITERAL_NAME [Leaf TK_WORD (txt "good")]]]]]]; Leaf TK_WHITESPACE (txt " "); Leaf TK_AND (txt "and"); Node TWIG_EXPRESSION [Node TWIG_BINARY_EXPRESSION [Node TWIG_EXPRESSION [Node TWIG_ACCESSOR [Node TWIG_OPERAND [Node TWIG_ACCESSOR [Node TWIG_OPERAND [Node TWIG_LITERAL_NAME [Leaf TK_WHITESPACE (txt " "); Leaf TK_WORD (txt "lineItem")]]; Leaf TK_DOT (txt "."); Node TWIG_OPERAND [Node TWIG_LITERAL_NAME [Leaf TK_WORD (txt "price")]]]]; Leaf TK_DOT (txt "."); Node TWIG_OPERAND [Node TWIG_LITERAL_NAME [Leaf TK_WORD (txt "totalPrice")]]]]; Leaf TK_WHITESPACE (txt " "); Leaf TK_LESS_THAN_EQUAL (txt "<="); Node TWIG_EXPRESSION [Node TWIG_LITERAL_NUMBER [Leaf TK_WHITESPACE (txt " "); Leaf TK_NUMBER (txt "0")]]]]]]; Leaf TK_CLOSE_PARENTHESIS (txt ")")]]; Leaf TK_WHITESPACE (txt " "); Leaf TK_OR (txt "or"); Node TWIG_EXPRESSION [Node TWIG_BINARY_EXPRESSION [Node TWIG_EXPRESSION [Node TWIG_ACCESSOR [Node TWIG_OPERAND [Node TWIG_LITERAL_NAME [Leaf TK_WHITESPACE (txt " "); Leaf TK_WORD (txt "lineItem")]]; Leaf TK_DOT (txt "."); Node TWIG_OPERAND [Node TWIG_LITERAL_NAME [Leaf TK_WORD (txt "type")]]]]; Leaf TK_WHITESPACE (txt " "); Leaf TK_DOUBLE_EQUAL (txt "=="); Node TWIG_EXPRESSION [Node TWIG_LITERAL_NAME [Leaf TK_WHITESPACE (txt " "); Leaf TK_WORD (txt "DISCOUNT_LINE_ITEM_TYPE")]]]]]]]; Leaf TK_WHITESPACE (txt " "); Leaf TK_PERCENT_CURLY (txt "%}")]]],
   []).

(** grammar/twig/expression.rs:1813 *)
Definition t_expression_1813 : ptest :=
  (txt "{% set sizes = (theme_config('breakpoint.sm') - 1) ~ 'px' %}",
   Node ROOT [Node TWIG_SET [Node TWIG_SET_BLOCK [Leaf TK_CURLY_PERCENT (txt "{%"); Leaf TK_WHITESPACE (txt " "); Leaf TK_SET (txt "set"); Node TWIG_ASSIGNMENT [Node TWIG_LITERAL_NAME [Leaf TK_WHITESPACE (txt " "); Leaf TK_WORD (txt "sizes")]; Leaf TK_WHITESPACE (txt " "); Leaf TK_EQUAL (txt "="); Node TWIG_EXPRESSION [Node TWIG_BINARY_EXPRESSION [Node TWIG_EXPRESSION [Node TWIG_PARENTHESES_EXPRESSION [Leaf TK_WHITESPACE (txt " "); Leaf TK_OPEN_PARENTHESIS (txt "("); Node TWIG_EXPRESSION [Node TWIG_BINARY_EXPRESSION [Node TWIG_EXPRESSION [Node TWIG_FUNCTION_CALL [Node TWIG_OPERAND [Node TWIG_LITERAL_NAME [Leaf TK_WORD (txt "theme_config")]]; Node TWIG_ARGUMENTS [Leaf TK_OPEN_PARENTHESIS (txt "("); Node TWIG_EXPRESSION [Node TWIG_LITERAL_STRING [Leaf TK_SINGLE_QUOTES (txt "'"); Node TWIG_LITERAL_STRING_INNER [Leaf TK_WORD (txt "breakpoint"); Leaf TK_DOT (txt "."); Leaf TK_WORD (txt "sm")]; Leaf TK_SINGLE_QUOTES (txt "'")]]; Leaf TK_CLOSE_PARENTHESIS (txt ")")]]]; Leaf TK_WHITESPACE (txt " "); Leaf TK_MINUS (txt "-"); Node TWIG_EXPRESSION [Node TWIG_LITERAL_NUMBER [Leaf TK_WHITESPACE (txt " "); Leaf TK_NUMBER (txt "1")]]]]; Leaf TK_CLOSE_PARENTHESIS (txt ")")]]; Leaf TK_WHITESPACE (txt " "); Leaf TK_TILDE (txt "~"); Node TWIG_EXPRESSION [Node TWIG_LITERAL_STRING [Leaf TK_WHITESPACE (txt " "); Leaf TK_SINGLE_QUOTES (txt "'"); Node TWIG_LITERAL_STRING_INNER [Leaf TK_WORD (txt "px")]; Leaf TK_SINGLE_QUOTES (txt "'")]]]]]; Leaf TK_WHITESPACE (txt " "); Leaf TK_PERCENT_CURLY (txt "%}")]]],
   []).

(** grammar/twig/expression.rs:1875 *)
Definition t_expression_1875 : ptest :=
  (txt "{% set sizes = {
                xs: (theme_config('breakpoint.sm') - 1) ~ 'px',
                sm: (theme_config('breakpoint.md') - 1) ~'px',
                md: ((theme_config('breakpoint.lg') - 1) / columns)|round(0, 'ceil') ~'px',
                lg: ((theme_config('breakpoint.xl') - 1) / columns)|round(0, 'ceil') ~'px'
            } %}",
   Node ROOT [Node TWIG_SET [Node TWIG_SET_BLOCK [Leaf TK_CURLY_PERCENT (txt "{%"); Leaf TK_WHITESPACE (txt " "); Leaf TK_SET (txt "set"); Node TWIG_ASSIGNMENT [Node TWIG_LITERAL_NAME [Leaf TK_WHITESPACE (txt " "); Leaf TK_WORD (txt "sizes")]; Leaf TK_WHITESPACE (txt " "); Leaf TK_EQUAL (txt "="); Node TWIG_EXPRESSION [Node TWIG_LITERAL_HASH [Leaf TK_WHITESPACE (txt " "); Leaf TK_OPEN_CURLY (txt "{"); Node TWIG_LITERAL_HASH_ITEMS [Node TWIG_LITERAL_HASH_PAIR [Node TWIG_LITERAL_HASH_KEY [Leaf TK_LINE_BREAK (txt "
"); Leaf TK_WHITESPACE (txt "                "); Leaf TK_WORD (txt "xs")]; Leaf TK_COLON (txt ":"); Node TWIG_EXPRESSION [Node TWIG_BINARY_EXPRESSION [Node TWIG_EXPRESSION [Node TWIG_PARENTHESES_EXPRESSION [Leaf TK_WHITESPACE (txt " "); Leaf TK_OPEN_PARENTHESIS (txt "("); Node TWIG_EXPRESSION [Node TWIG_BINARY_EXPRESSION [Node TWIG_EXPRESSION [Node TWIG_FUNCTION_CALL [Node TWIG_OPERAND [Node TWIG_LITERAL_NAME [Leaf TK_WORD (txt "theme_config")]]; Node TWIG_ARGUMENTS [Leaf TK_OPEN_PARENTHESIS (txt "("); Node TWIG_EXPRESSION [Node TWIG_LITERAL_STRING [Leaf TK_SINGLE_QUOTES (txt "'"); Node TWIG_LITERAL_STRING_INNER [Leaf TK_WORD (txt "breakpoint"); Leaf TK_DOT (txt "."); Leaf TK_WORD (txt "sm")]; Leaf TK_SINGLE_QUOTES (txt "'")]]; Leaf TK_CLOSE_PARENTHESIS (txt ")")]]]; Leaf TK_WHITESPACE (txt " "); Leaf TK_MINUS (txt "-"); Node TWIG_EXPRESSION [Node TWIG_LITERAL_NUMBER [Leaf TK_WHITESPACE (txt " "); Leaf TK_NUMBER (txt "1")]]]]; Leaf TK_CLOSE_PARENTHESIS (txt ")")]]; Leaf TK_WHITESPACE (txt " "); Leaf TK_TILDE (txt "~"); Node TWIG_EXPRESSION [Node TWIG_LITERAL_STRING [Leaf TK_WHITESPACE (txt " "); Leaf TK_SINGLE_QUOTES (txt "'"); Node TWIG_LITERAL_STRING_INNER [Leaf TK_WORD (txt "px")]; Leaf TK_SINGLE_QUOTES (txt "'")]]]]]; Leaf TK_COMMA (txt ","); Node TWIG_LITERAL_HASH_PAIR [Node TWIG_LITERAL_HASH_KEY [Leaf TK_LINE_BREAK (txt "
"); Leaf TK_WHITESPACE (txt "                "); Leaf TK_WORD (txt "sm")]; Leaf TK_COLON (txt ":"); Node TWIG_EXPRESSION [Node TWIG_BINARY_EXPRESSION [Node TWIG_EXPRESSION [Node TWIG_PARENTHESES_EXPRESSION [Leaf TK_WHITESPACE (txt " "); Leaf TK_OPEN_PARENTHESIS (txt "("); Node TWIG_EXPRESSION [Node TWIG_BINARY_EXPRESSION [Node TWIG_EXPRESSION [Node TWIG_FUNCTION_CALL [Node TWIG_OPERAND [Node TWIG_LITERAL_NAME [Leaf TK_WORD (txt "theme_config")]]; Node TWIG_ARGUMENTS [Leaf TK_OPEN_PARENTHESIS (txt "("); Node TWIG_EXPRESSION [Node TWIG_LITERAL_STRING [Leaf TK_SINGLE_QUOTES (txt "'"); Node TWIG_LITERAL_STRING_INNER [Leaf TK_WORD (txt "breakpoint"); Leaf TK_DOT (txt "."); Leaf TK_WORD (txt "md")]; Leaf TK_SINGLE_QUOTES (txt "'")]]; Leaf TK_CLOSE_PARENTHESIS (txt ")")]]]; Leaf TK_WHITESPACE (txt " "); Leaf TK_MINUS (txt "-"); Node TWIG_EXPRESSION [Node TWIG_LITERAL_NUMBER [Leaf TK_WHITESPACE (txt " "); Leaf TK_NUMBER (txt "1")]]]]; Leaf TK_CLOSE_PARENTHESIS (txt ")")]]; Leaf TK_WHITESPACE (txt " "); Leaf TK_TILDE (txt "~"); Node TWIG_EXPRESSION [Node TWIG_LITERAL_STRING [Leaf TK_SINGLE_QUOTES (txt "'"); Node TWIG_LITERAL_STRING_INNER [Leaf TK_WORD (txt "px")]; Leaf TK_SINGLE_QUOTES (txt "'")]]]]]; Leaf TK_COMMA (txt ","); Node TWIG_LITERAL_HASH_PAIR [Node TWIG_LITERAL_HASH_KEY [Leaf TK_LINE_BREAK (txt "
"); Leaf TK_WHITESPACE (txt "                "); Leaf TK_WORD (txt "md")]; Leaf TK_COLON (txt ":"); Node TWIG_EXPRESSION [Node TWIG_BINARY_EXPRESSION [Node TWIG_EXPRESSION [Node TWIG_FILTER [Node TWIG_OPERAND [Node TWIG_PARENTHESES_EXPRESSION [Leaf TK_WHITESPACE (txt " "); Leaf TK_OPEN_PARENTHESIS (txt "("); Node TWIG_EXPRESSION [Node TWIG_BINARY_EXPRESSION [Node TWIG_EXPRESSION [Node TWIG_PARENTHESES_EXPRESSION [Leaf TK_OPEN_PARENTHESIS (txt "("); Node TWIG_EXPRESSION [Node TWIG_BINARY_EXPRESSION [Node TWIG_EXPRESSION [Node TWIG_FUNCTION_CALL [Node TWIG_OPERAND [Node TWIG_LITERAL_NAME [Leaf TK_WORD (txt "theme_config")]]; Node TWIG_ARGUMENTS [Leaf TK_OPEN_PARENTHESIS (txt "("); Node TWIG_EXPRESSION [Node TWIG_LITERAL_STRING [Leaf TK_SINGLE_QUOTES (txt "'"); Node TWIG_LITERAL_STRING_INNER [Leaf TK_WORD (txt "breakpoint"); Leaf TK_DOT (txt "."); Leaf TK_WORD (txt "lg")]; Leaf TK_SINGLE_QUOTES (txt "'")]]; Leaf TK_CLOSE_PARENTHESIS (txt ")")]]]; Leaf TK_WHITESPACE (txt " "); Leaf TK_MINUS (txt "-"); Node TWIG_EXPRESSION [Node TWIG_LITERAL_NUMBER [Leaf TK_WHITESPACE (txt " "); Leaf TK_NUMBER (txt "1")]]]]; Leaf TK_CLOSE_PARENTHESIS (txt ")")]]; Leaf TK_WHITESPACE (txt " "); Leaf TK_FORWARD_SLASH (txt "/"); Node TWIG_EXPRESSION [Node TWIG_LITERAL_NAME [Leaf TK_WHITESPACE (txt " "); Leaf TK_WORD (txt "columns")]]]]; Leaf TK_CLOSE_PARENTHESIS (txt ")")]]; Leaf TK_SINGLE_PIPE (txt "|"); Node TWIG_OPERAND [Node TWIG_LITERAL_NAME [Leaf TK_WORD (txt "round")]; Node TWIG_ARGUMENTS [Leaf TK_OPEN_PARENTHESIS (txt "("); Node TWIG_EXPRESSION [Node TWIG_LITERAL_NUMBER [Leaf TK_NUMBER (txt "0")]]; Leaf TK_COMMA (txt ","); Node TWIG_EXPRESSION [Node TWIG_LITERAL_STRING [Leaf TK_WHITESPACE (txt " "); Leaf TK_SINGLE_QUOTES (txt "'"); Node TWIG_LITERAL_STRING_INNER [Leaf TK_WORD (txt "ceil")]; Leaf TK_SINGLE_QUOTES (txt "'")]]; Leaf TK_CLOSE_PARENTHESIS (txt ")")]]]]; Leaf TK_WHITESPACE (txt " "); Leaf TK_TILDE (txt "~"); Node TWIG_EXPRESSION [Node TWIG_LITERAL_STRING [Leaf TK_SINGLE_QUOTES (txt "'"); Node TWIG_LITERAL_STRING_INNER [Leaf TK_WORD (txt "px")]; Leaf TK_SINGLE_QUOTES (txt "'")]]]]]; Leaf TK_COMMA (txt ","); Node TWIG_LITERAL_HASH_PAIR [Node TWIG_LITERAL_HASH_KEY [Leaf TK_LINE_BREAK (txt "
"); Leaf TK_WHITESPACE (txt "                "); Leaf TK_WORD (txt "lg")]; Leaf TK_COLON (txt ":"); Node TWIG_EXPRESSION [Node TWIG_BINARY_EXPRESSION [Node TWIG_EXPRESSION [Node TWIG_FILTER [Node TWIG_OPERAND [Node TWIG_PARENTHESES_EXPRESSION [Leaf TK_WHITESPACE (txt " "); Leaf TK_OPEN_PARENTHESIS (txt "("); Node TWIG_EXPRESSION [Node TWIG_BINARY_EXPRESSION [Node TWIG_EXPRESSION [Node TWIG_PARENTHESES_EXPRESSION [Leaf TK_OPEN_PARENTHESIS (txt "("); Node TWIG_EXPRESSION [Node TWIG_BINARY_EXPRESSION [Node TWIG_EXPRESSION [Node TWIG_FUNCTION_CALL [Node TWIG_OPERAND [Node TWIG_LITERAL_NAME [Leaf TK_WORD (txt "theme_config")]]; Node TWIG_ARGUMENTS [Leaf TK_OPEN_PARENTHESIS (txt "("); Node TWIG_EXPRESSION [Node TWIG_LITERAL_STRING [Leaf TK_SINGLE_QUOTES (txt "'"); Node TWIG_LITERAL_STRING_INNER [Leaf TK_WORD (txt "breakpoint"); Leaf TK_DOT (txt "."); Leaf TK_WORD (txt "xl")]; Leaf TK_SINGLE_QUOTES (txt "'")]]; Leaf TK_CLOSE_PARENTHESIS (txt ")")]]]; Leaf TK_WHITESPACE (txt " "); Leaf TK_MINUS (txt "-"); Node TWIG_EXPRESSION [Node TWIG_LITERAL_NUMBER [Leaf TK_WHITESPACE (txt " "); Leaf TK_NUMBER (txt "1")]]]]; Leaf TK_CLOSE_PARENTHESIS (txt ")")]]; Leaf TK_WHITESPACE (txt " "); Leaf TK_FORWARD_SLASH (txt "/"); Node TWIG_EXPRESSION [Node TWIG_LITERAL_NAME [Leaf TK_WHITESPACE (txt " "); Leaf TK_WORD (txt "columns")]]]]; Leaf TK_CLOSE_PARENTHESIS (txt ")")]]; Leaf TK_SINGLE_PIPE (txt "|"); Node TWIG_OPERAND [Node TWIG_LITERAL_NAME [Leaf TK_WORD (txt "round")]; Node TWIG_ARGUMENTS [Leaf TK_OPEN_PARENTHESIS (txt "("); Node TWIG_EXPRESSION [Node TWIG_LITERAL_NUMBER [Leaf TK_NUMBER (txt "0")]]; Leaf TK_COMMA (txt ","); Node TWIG_EXPRESSION [Node TWIG_LITERAL_STRING [Leaf TK_WHITESPACE (txt " "); Leaf TK_SINGLE_QUOTES (txt "'"); Node TWIG_LITERAL_STRING_INNER [Leaf TK_WORD (txt "ceil")]; Leaf TK_SINGLE_QUOTES (txt "'")]]; Leaf TK_CLOSE_PARENTHESIS (txt ")")]]]]; Leaf TK_WHITESPACE (txt " "); Leaf TK_TILDE (txt "~"); Node TWIG_EXPRESSION [Node TWIG_LITERAL_STRING [Leaf TK_SINGLE_QUOTES (txt "'"); Node TWIG_LITERAL_STRING_INNER [Leaf TK_WORD (txt "px")]; Leaf TK_SINGLE_QUOTES (txt "'")]]]]]]; Leaf TK_LINE_BREAK (txt "
"); Leaf TK_WHITESPACE (txt "            "); Leaf TK_CLOSE_CURLY (txt "}")]]]; Leaf TK_WHITESPACE (txt " "); Leaf TK_PERCENT_CURLY (txt "%}")]]],
   []).

(** grammar/twig/expression.rs:2158 *)
Definition t_expression_2158 : ptest :=
  (txt "{{ ...moreNumbers }}",
   Node ROOT [Node TWIG_VAR [Leaf TK_OPEN_CURLY_CURLY (txt "{{"); Node TWIG_EXPRESSION [Node TWIG_UNARY_EXPRESSION [Leaf TK_WHITESPACE (txt " "); Leaf TK_TRIPLE_DOT (txt "..."); Node TWIG_EXPRESSION [Node TWIG_LITERAL_NAME [Leaf TK_WORD (txt "moreNumbers")]]]]; Leaf TK_WHITESPACE (txt " "); Leaf TK_CLOSE_CURLY_CURLY (txt "}}")]],
   []).

(** grammar/twig/expression.rs:2178 *)
Definition t_expression_2178 : ptest :=
  (txt "{% set numbers = [1, 2, ...moreNumbers] %}",
   Node ROOT [Node TWIG_SET [Node TWIG_SET_BLOCK [Leaf TK_CURLY_PERCENT (txt "{%"); Leaf TK_WHITESPACE (txt " "); Leaf TK_SET (txt "set"); Node TWIG_ASSIGNMENT [Node TWIG_LITERAL_NAME [Leaf TK_WHITESPACE (txt " "); Leaf TK_WORD (txt "numbers")]; Leaf TK_WHITESPACE (txt " "); Leaf TK_EQUAL (txt "="); Node TWIG_EXPRESSION [Node TWIG_LITERAL_ARRAY [Leaf TK_WHITESPACE (txt " "); Leaf TK_OPEN_SQUARE (txt "["); Node TWIG_LITERAL_ARRAY_INNER [Node TWIG_EXPRESSION [Node TWIG_LITERAL_NUMBER [Leaf TK_NUMBER (txt "1")]]; Leaf TK_COMMA (txt ","); Node TWIG_EXPRESSION [Node TWIG_LITERAL_NUMBER [Leaf TK_WHITESPACE (txt " "); Leaf TK_NUMBER (txt "2")]]; Leaf TK_COMMA (txt ","); Node TWIG_EXPRESSION [Node TWIG_UNARY_EXPRESSION [Leaf TK_WHITESPACE (txt " "); Leaf TK_TRIPLE_DOT (txt "..."); Node TWIG_EXPRESSION [Node TWIG_LITERAL_NAME [Leaf TK_WORD (txt "moreNumbers")]]]]]; Leaf TK_CLOSE_SQUARE (txt "]")]]]; Leaf TK_WHITESPACE (txt " "); Leaf TK_PERCENT_CURLY (txt "%}")]]],
   []).

(** grammar/twig/literal.rs:497 *)
Definition t_literal_497 : ptest :=
  (txt "{{ 'hel""lo world' }}",
   Node ROOT [Node TWIG_VAR [Leaf TK_OPEN_CURLY_CURLY (txt "{{"); Node TWIG_EXPRESSION [Node TWIG_LITERAL_STRING [Leaf TK_WHITESPACE (txt " "); Leaf TK_SINGLE_QUOTES (txt "'"); Node TWIG_LITERAL_STRING_INNER [Leaf TK_WORD (txt "hel"); Leaf TK_DOUBLE_QUOTES (txt """"); Leaf TK_WORD (txt "lo"); Leaf TK_WHITESPACE (txt " "); Leaf TK_WORD (txt "world")]; Leaf TK_SINGLE_QUOTES (txt "'")]]; Leaf TK_WHITESPACE (txt " "); Leaf TK_CLOSE_CURLY_CURLY (txt "}}")]],
   []).

(** grammar/twig/literal.rs:521 *)
Definition t_literal_521 : ptest :=
  (txt "{{ ""hel'lo world"" }}",
   Node ROOT [Node TWIG_VAR [Leaf TK_OPEN_CURLY_CURLY (txt "{{"); Node TWIG_EXPRESSION [Node TWIG_LITERAL_STRING [Leaf TK_WHITESPACE (txt " "); Leaf TK_DOUBLE_QUOTES (txt """"); Node TWIG_LITERAL_STRING_INNER [Leaf TK_WORD (txt "hel"); Leaf TK_SINGLE_QUOTES (txt "'"); Leaf TK_WORD (txt "lo"); Leaf TK_WHITESPACE (txt " "); Leaf TK_WORD (txt "world")]; Leaf TK_DOUBLE_QUOTES (txt """")]]; Leaf TK_WHITESPACE (txt " "); Leaf TK_CLOSE_CURLY_CURLY (txt "}}")]],
   []).

(** grammar/twig/literal.rs:545 *)
Definition t_literal_545 : ptest :=
  (txt "{{ ""hel\""lo world"" }}",
   Node ROOT [Node TWIG_VAR [Leaf TK_OPEN_CURLY_CURLY (txt "{{"); Node TWIG_EXPRESSION [Node TWIG_LITERAL_STRING [Leaf TK_WHITESPACE (txt " "); Leaf TK_DOUBLE_QUOTES (txt """"); Node TWIG_LITERAL_STRING_INNER [Leaf TK_WORD (txt "hel"); Leaf TK_BACKWARD_SLASH (txt "\"); Leaf TK_DOUBLE_QUOTES (txt """"); Leaf TK_WORD (txt "lo"); Leaf TK_WHITESPACE (txt " "); Leaf TK_WORD (txt "world")]; Leaf TK_DOUBLE_QUOTES (txt """")]]; Leaf TK_WHITESPACE (txt " "); Leaf TK_CLOSE_CURLY_CURLY (txt "}}")]],
   []).

(** grammar/twig/literal.rs:570 *)
Definition t_literal_570 : ptest :=
  (txt "{{ "" , "" }}",
   Node ROOT [Node TWIG_VAR [Leaf TK_OPEN_CURLY_CURLY (txt "{{"); Node TWIG_EXPRESSION [Node TWIG_LITERAL_STRING [Leaf TK_WHITESPACE (txt " "); Leaf TK_DOUBLE_QUOTES (txt """"); Node TWIG_LITERAL_STRING_INNER [Leaf TK_WHITESPACE (txt " "); Leaf TK_COMMA (txt ","); Leaf TK_WHITESPACE (txt " ")]; Leaf TK_DOUBLE_QUOTES (txt """")]]; Leaf TK_WHITESPACE (txt " "); Leaf TK_CLOSE_CURLY_CURLY (txt "}}")]],
   []).

(** grammar/twig/literal.rs:592 *)
Definition t_literal_592 : ptest :=
  (txt "{{ ""foo #{1 + 2} baz"" }}",
   Node ROOT [Node TWIG_VAR [Leaf TK_OPEN_CURLY_CURLY (txt "{{"); Node TWIG_EXPRESSION [Node TWIG_LITERAL_STRING [Leaf TK_WHITESPACE (txt " "); Leaf TK_DOUBLE_QUOTES (txt """"); Node TWIG_LITERAL_STRING_INNER [Leaf TK_WORD (txt "foo"); Leaf TK_WHITESPACE (txt " "); Node TWIG_LITERAL_STRING_INTERPOLATION [Leaf TK_HASHTAG (txt "#"); Leaf TK_OPEN_CURLY (txt "{"); Node TWIG_EXPRESSION [Node TWIG_BINARY_EXPRESSION [Node TWIG_EXPRESSION [Node TWIG_LITERAL_NUMBER [Leaf TK_NUMBER (txt "1")]]; Leaf TK_WHITESPACE (txt " "); Leaf TK_PLUS (txt "+"); Node TWIG_EXPRESSION [Node TWIG_LITERAL_NUMBER [Leaf TK_WHITESPACE (txt " "); Leaf TK_NUMBER (txt "2")]]]]; Leaf TK_CLOSE_CURLY (txt "}")]; Leaf TK_WHITESPACE (txt " "); Leaf TK_WORD (txt "baz")]; Leaf TK_DOUBLE_QUOTES (txt """")]]; Leaf TK_WHITESPACE (txt " "); Leaf TK_CLOSE_CURLY_CURLY (txt "}}")]],
   []).

(** grammar/twig/literal.rs:630 *)
Definition t_literal_630 : ptest :=
  (txt "{{ ""foo #{ } baz"" }}",
   Node ROOT [Node TWIG_VAR [Leaf TK_OPEN_CURLY_CURLY (txt "{{"); Node TWIG_EXPRESSION [Node TWIG_LITERAL_STRING [Leaf TK_WHITESPACE (txt " "); Leaf TK_DOUBLE_QUOTES (txt """"); Node TWIG_LITERAL_STRING_INNER [Leaf TK_WORD (txt "foo"); Leaf TK_WHITESPACE (txt " "); Node TWIG_LITERAL_STRING_INTERPOLATION [Leaf TK_HASHTAG (txt "#"); Leaf TK_OPEN_CURLY (txt "{"); Leaf TK_WHITESPACE (txt " "); Leaf TK_CLOSE_CURLY (txt "}")]; Leaf TK_WHITESPACE (txt " "); Leaf TK_WORD (txt "baz")]; Leaf TK_DOUBLE_QUOTES (txt """")]]; Leaf TK_WHITESPACE (txt " "); Leaf TK_CLOSE_CURLY_CURLY (txt "}}")]],
   [txt "error at 11..12: expected twig expression but found }"]).

(** grammar/twig/literal.rs:659 *)
Definition t_literal_659 : ptest :=
  (txt "{{ 42 }}",
   Node ROOT [Node TWIG_VAR [Leaf TK_OPEN_CURLY_CURLY (txt "{{"); Node TWIG_EXPRESSION [Node TWIG_LITERAL_NUMBER [Leaf TK_WHITESPACE (txt " "); Leaf TK_NUMBER (txt "42")]]; Leaf TK_WHITESPACE (txt " "); Leaf TK_CLOSE_CURLY_CURLY (txt "}}")]],
   []).

(** grammar/twig/literal.rs:676 *)
Definition t_literal_676 : ptest :=
  (txt "{{ 0.3337 }}",
   Node ROOT [Node TWIG_VAR [Leaf TK_OPEN_CURLY_CURLY (txt "{{"); Node TWIG_EXPRESSION [Node TWIG_LITERAL_NUMBER [Leaf TK_WHITESPACE (txt " "); Leaf TK_NUMBER (txt "0.3337")]]; Leaf TK_WHITESPACE (txt " "); Leaf TK_CLOSE_CURLY_CURLY (txt "}}")]],
   []).

(** grammar/twig/literal.rs:693 *)
Definition t_literal_693 : ptest :=
  (txt "{{ [1, 2, 3] }}",
   Node ROOT [Node TWIG_VAR [Leaf TK_OPEN_CURLY_CURLY (txt "{{"); Node TWIG_EXPRESSION [Node TWIG_LITERAL_ARRAY [Leaf TK_WHITESPACE (txt " "); Leaf TK_OPEN_SQUARE (txt "["); Node TWIG_LITERAL_ARRAY_INNER [Node TWIG_EXPRESSION [Node TWIG_LITERAL_NUMBER [Leaf TK_NUMBER (txt "1")]]; Leaf TK_COMMA (txt ","); Node TWIG_EXPRESSION [Node TWIG_LITERAL_NUMBER [Leaf TK_WHITESPACE (txt " "); Leaf TK_NUMBER (txt "2")]]; Leaf TK_COMMA (txt ","); Node TWIG_EXPRESSION [Node TWIG_LITERAL_NUMBER [Leaf TK_WHITESPACE (txt " "); Leaf TK_NUMBER (txt "3")]]]; Leaf TK_CLOSE_SQUARE (txt "]")]]; Leaf TK_WHITESPACE (txt " "); Leaf TK_CLOSE_CURLY_CURLY (txt "}}")]],
   []).

(** grammar/twig/literal.rs:725 *)
Definition t_literal_725 : ptest :=
  (txt "{{ [1, 2 3] }}",
   Node ROOT [Node TWIG_VAR [Leaf TK_OPEN_CURLY_CURLY (txt "{{"); Node TWIG_EXPRESSION [Node TWIG_LITERAL_ARRAY [Leaf TK_WHITESPACE (txt " "); Leaf TK_OPEN_SQUARE (txt "["); Node TWIG_LITERAL_ARRAY_INNER [Node TWIG_EXPRESSION [Node TWIG_LITERAL_NUMBER [Leaf TK_NUMBER (txt "1")]]; Leaf TK_COMMA (txt ","); Node TWIG_EXPRESSION [Node TWIG_LITERAL_NUMBER [Leaf TK_WHITESPACE (txt " "); Leaf TK_NUMBER (txt "2")]]; Node TWIG_EXPRESSION [Node TWIG_LITERAL_NUMBER [Leaf TK_WHITESPACE (txt " "); Leaf TK_NUMBER (txt "3")]]]; Leaf TK_CLOSE_SQUARE (txt "]")]]; Leaf TK_WHITESPACE (txt " "); Leaf TK_CLOSE_CURLY_CURLY (txt "}}")]],
   [txt "error at 9..10: expected , but found number"]).

(** grammar/twig/literal.rs:757 *)
Definition t_literal_757 : ptest :=
  (txt "{{ [""hello"", ""trailing"", ""comma"",] }}",
   Node ROOT [Node TWIG_VAR [Leaf TK_OPEN_CURLY_CURLY (txt "{{"); Node TWIG_EXPRESSION [Node TWIG_LITERAL_ARRAY [Leaf TK_WHITESPACE (txt " "); Leaf TK_OPEN_SQUARE (txt "["); Node TWIG_LITERAL_ARRAY_INNER [Node TWIG_EXPRESSION [Node TWIG_LITERAL_STRING [Leaf TK_DOUBLE_QUOTES (txt """"); Node TWIG_LITERAL_STRING_INNER [Leaf TK_WORD (txt "hello")]; Leaf TK_DOUBLE_QUOTES (txt """")]]; Leaf TK_COMMA (txt ","); Node TWIG_EXPRESSION [Node TWIG_LITERAL_STRING [Leaf TK_WHITESPACE (txt " "); Leaf TK_DOUBLE_QUOTES (txt """"); Node TWIG_LITERAL_STRING_INNER [Leaf TK_WORD (txt "trailing")]; Leaf TK_DOUBLE_QUOTES (txt """")]]; Leaf TK_COMMA (txt ","); Node TWIG_EXPRESSION [Node TWIG_LITERAL_STRING [Leaf TK_WHITESPACE (txt " "); Leaf TK_DOUBLE_QUOTES (txt """"); Node TWIG_LITERAL_STRING_INNER [Leaf TK_WORD (txt "comma")]; Leaf TK_DOUBLE_QUOTES (txt """")]]; Leaf TK_COMMA (txt ",")]; Leaf TK_CLOSE_SQUARE (txt "]")]]; Leaf TK_WHITESPACE (txt " "); Leaf TK_CLOSE_CURLY_CURLY (txt "}}")]],
   []).

(** grammar/twig/literal.rs:799 *)
Definition t_literal_799 : ptest :=
  (txt "{{ null }}",
   Node ROOT [Node TWIG_VAR [Leaf TK_OPEN_CURLY_CURLY (txt "{{"); Node TWIG_EXPRESSION [Node TWIG_LITERAL_NULL [Leaf TK_WHITESPACE (txt " "); Leaf TK_NULL (txt "null")]]; Leaf TK_WHITESPACE (txt " "); Leaf TK_CLOSE_CURLY_CURLY (txt "}}")]],
   []).

(** grammar/twig/literal.rs:816 *)
Definition t_literal_816 : ptest :=
  (txt "{{ true }}",
   Node ROOT [Node TWIG_VAR [Leaf TK_OPEN_CURLY_CURLY (txt "{{"); Node TWIG_EXPRESSION [Node TWIG_LITERAL_BOOLEAN [Leaf TK_WHITESPACE (txt " "); Leaf TK_TRUE (txt "true")]]; Leaf TK_WHITESPACE (txt " "); Leaf TK_CLOSE_CURLY_CURLY (txt "}}")]],
   []).

(** grammar/twig/literal.rs:833 *)
Definition t_literal_833 : ptest :=
  (txt "{{ false }}",
   Node ROOT [Node TWIG_VAR [Leaf TK_OPEN_CURLY_CURLY (txt "{{"); Node TWIG_EXPRESSION [Node TWIG_LITERAL_BOOLEAN [Leaf TK_WHITESPACE (txt " "); Leaf TK_FALSE (txt "false")]]; Leaf TK_WHITESPACE (txt " "); Leaf TK_CLOSE_CURLY_CURLY (txt "}}")]],
   []).

(** grammar/twig/literal.rs:850 *)
Definition t_literal_850 : ptest :=
  (txt "{{ { 1: 'hello', 2: 'world' } }}",
   Node ROOT [Node TWIG_VAR [Leaf TK_OPEN_CURLY_CURLY (txt "{{"); Node TWIG_EXPRESSION [Node TWIG_LITERAL_HASH [Leaf TK_WHITESPACE (txt " "); Leaf TK_OPEN_CURLY (txt "{"); Node TWIG_LITERAL_HASH_ITEMS [Node TWIG_LITERAL_HASH_PAIR [Node TWIG_LITERAL_HASH_KEY [Node TWIG_LITERAL_NUMBER [Leaf TK_WHITESPACE (txt " "); Leaf TK_NUMBER (txt "1")]]; Leaf TK_COLON (txt ":"); Node TWIG_EXPRESSION [Node TWIG_LITERAL_STRING [Leaf TK_WHITESPACE (txt " "); Leaf TK_SINGLE_QUOTES (txt "'"); Node TWIG_LITERAL_STRING_INNER [Leaf TK_WORD (txt "hello")]; Leaf TK_SINGLE_QUOTES (txt "'")]]]; Leaf TK_COMMA (txt ","); Node TWIG_LITERAL_HASH_PAIR [Node TWIG_LITERAL_HASH_KEY [Node TWIG_LITERAL_NUMBER [Leaf TK_WHITESPACE (txt " "); Leaf TK_NUMBER (txt "2")]]; Leaf TK_COLON (txt ":"); Node TWIG_EXPRESSION [Node TWIG_LITERAL_STRING [Leaf TK_WHITESPACE (txt " "); Leaf TK_SINGLE_QUOTES (txt "'"); Node TWIG_LITERAL_STRING_INNER [Leaf TK_WORD (txt "world")]; Leaf TK_SINGLE_QUOTES (txt "'")]]]]; Leaf TK_WHITESPACE (txt " "); Leaf TK_CLOSE_CURLY (txt "}")]]; Leaf TK_WHITESPACE (txt " "); Leaf TK_CLOSE_CURLY_CURLY (txt "}}")]],
   []).

(** grammar/twig/literal.rs:897 *)
Definition t_literal_897 : ptest :=
  (txt "{{ { 'hello': 42, 'world': 33 } }}",
   Node ROOT [Node TWIG_VAR [Leaf TK_OPEN_CURLY_CURLY (txt "{{"); Node TWIG_EXPRESSION [Node TWIG_LITERAL_HASH [Leaf TK_WHITESPACE (txt " "); Leaf TK_OPEN_CURLY (txt "{"); Node TWIG_LITERAL_HASH_ITEMS [Node TWIG_LITERAL_HASH_PAIR [Node TWIG_LITERAL_HASH_KEY [Node TWIG_LITERAL_STRING [Leaf TK_WHITESPACE (txt " "); Leaf TK_SINGLE_QUOTES (txt "'"); Node TWIG_LITERAL_STRING_INNER [Leaf TK_WORD (txt "hello")]; Leaf TK_SINGLE_QUOTES (txt "'")]]; Leaf TK_COLON (txt ":"); Node TWIG_EXPRESSION [Node TWIG_LITERAL_NUMBER [Leaf TK_WHITESPACE (txt " "); Leaf TK_NUMBER (txt "42")]]]; Leaf TK_COMMA (txt ","); Node TWIG_LITERAL_HASH_PAIR [Node TWIG_LITERAL_HASH_KEY [Node TWIG_LITERAL_STRING [Leaf TK_WHITESPACE (txt " "); Leaf TK_SINGLE_QUOTES (txt "'"); Node TWIG_LITERAL_STRING_INNER [Leaf TK_WORD (txt "world")]; Leaf TK_SINGLE_QUOTES (txt "'")]]; Leaf TK_COLON (txt ":"); Node TWIG_EXPRESSION [Node TWIG_LITERAL_NUMBER [Leaf TK_WHITESPACE (txt " "); Leaf TK_NUMBER (txt "33")]]]]; Leaf TK_WHITESPACE (txt " "); Leaf TK_CLOSE_CURLY (txt "}")]]; Leaf TK_WHITESPACE (txt " "); Leaf TK_CLOSE_CURLY_CURLY (txt "}}")]],
   []).

(** grammar/twig/literal.rs:944 *)
Definition t_literal_944 : ptest :=
  (txt "{{ { hello: 42, world: 33 } }}",
   Node ROOT [Node TWIG_VAR [Leaf TK_OPEN_CURLY_CURLY (txt "{{"); Node TWIG_EXPRESSION [Node TWIG_LITERAL_HASH [Leaf TK_WHITESPACE (txt " "); Leaf TK_OPEN_CURLY (txt "{"); Node TWIG_LITERAL_HASH_ITEMS [Node TWIG_LITERAL_HASH_PAIR [Node TWIG_LITERAL_HASH_KEY [Leaf TK_WHITESPACE (txt " "); Leaf TK_WORD (txt "hello")]; Leaf TK_COLON (txt ":"); Node TWIG_EXPRESSION [Node TWIG_LITERAL_NUMBER [Leaf TK_WHITESPACE (txt " "); Leaf TK_NUMBER (txt "42")]]]; Leaf TK_COMMA (txt ","); Node TWIG_LITERAL_HASH_PAIR [Node TWIG_LITERAL_HASH_KEY [Leaf TK_WHITESPACE (txt " "); Leaf TK_WORD (txt "world")]; Leaf TK_COLON (txt ":"); Node TWIG_EXPRESSION [Node TWIG_LITERAL_NUMBER [Leaf TK_WHITESPACE (txt " "); Leaf TK_NUMBER (txt "33")]]]]; Leaf TK_WHITESPACE (txt " "); Leaf TK_CLOSE_CURLY (txt "}")]]; Leaf TK_WHITESPACE (txt " "); Leaf TK_CLOSE_CURLY_CURLY (txt "}}")]],
   []).

(** grammar/twig/literal.rs:983 *)
Definition t_literal_983 : ptest :=
  (txt "{{ { valid: 42, _: 99 } }}",
   Node ROOT [Node TWIG_VAR [Leaf TK_OPEN_CURLY_CURLY (txt "{{"); Node TWIG_EXPRESSION [Node TWIG_LITERAL_HASH [Leaf TK_WHITESPACE (txt " "); Leaf TK_OPEN_CURLY (txt "{"); Node TWIG_LITERAL_HASH_ITEMS [Node TWIG_LITERAL_HASH_PAIR [Node TWIG_LITERAL_HASH_KEY [Leaf TK_WHITESPACE (txt " "); Leaf TK_WORD (txt "valid")]; Leaf TK_COLON (txt ":"); Node TWIG_EXPRESSION [Node TWIG_LITERAL_NUMBER [Leaf TK_WHITESPACE (txt " "); Leaf TK_NUMBER (txt "42")]]]; Leaf TK_COMMA (txt ","); Node TWIG_LITERAL_HASH_PAIR [Node TWIG_LITERAL_HASH_KEY [Leaf TK_WHITESPACE (txt " "); Leaf TK_WORD (txt "_")]; Leaf TK_COLON (txt ":"); Node TWIG_EXPRESSION [Node TWIG_LITERAL_NUMBER [Leaf TK_WHITESPACE (txt " "); Leaf TK_NUMBER (txt "99")]]]]; Leaf TK_WHITESPACE (txt " "); Leaf TK_CLOSE_CURLY (txt "}")]]; Leaf TK_WHITESPACE (txt " "); Leaf TK_CLOSE_CURLY_CURLY (txt "}}")]],
   []).

(** grammar/twig/literal.rs:1022 *)
Definition t_literal_1022 : ptest :=
  (txt "{{ { (15): 42 (60): 33 } }}",
   Node ROOT [Node TWIG_VAR [Leaf TK_OPEN_CURLY_CURLY (txt "{{"); Node TWIG_EXPRESSION [Node TWIG_LITERAL_HASH [Leaf TK_WHITESPACE (txt " "); Leaf TK_OPEN_CURLY (txt "{"); Node TWIG_LITERAL_HASH_ITEMS [Node TWIG_LITERAL_HASH_PAIR [Node TWIG_LITERAL_HASH_KEY [Leaf TK_WHITESPACE (txt " "); Leaf TK_OPEN_PARENTHESIS (txt "("); Node TWIG_EXPRESSION [Node TWIG_LITERAL_NUMBER [Leaf TK_NUMBER (txt "15")]]; Leaf TK_CLOSE_PARENTHESIS (txt ")")]; Leaf TK_COLON (txt ":"); Node TWIG_EXPRESSION [Node TWIG_LITERAL_NUMBER [Leaf TK_WHITESPACE (txt " "); Leaf TK_NUMBER (txt "42")]]]; Node TWIG_LITERAL_HASH_PAIR [Node TWIG_LITERAL_HASH_KEY [Leaf TK_WHITESPACE (txt " "); Leaf TK_OPEN_PARENTHESIS (txt "("); Node TWIG_EXPRESSION [Node TWIG_LITERAL_NUMBER [Leaf TK_NUMBER (txt "60")]]; Leaf TK_CLOSE_PARENTHESIS (txt ")")]; Leaf TK_COLON (txt ":"); Node TWIG_EXPRESSION [Node TWIG_LITERAL_NUMBER [Leaf TK_WHITESPACE (txt " "); Leaf TK_NUMBER (txt "33")]]]]; Leaf TK_WHITESPACE (txt " "); Leaf TK_CLOSE_CURLY (txt "}")]]; Leaf TK_WHITESPACE (txt " "); Leaf TK_CLOSE_CURLY_CURLY (txt "}}")]],
   [txt "error at 14..15: expected , but found ("]).

(** grammar/twig/literal.rs:1069 *)
Definition t_literal_1069 : ptest :=
  (txt "{{ { '%total%':reviews.totalReviews } }}",
   Node ROOT [Node TWIG_VAR [Leaf TK_OPEN_CURLY_CURLY (txt "{{"); Node TWIG_EXPRESSION [Node TWIG_LITERAL_HASH [Leaf TK_WHITESPACE (txt " "); Leaf TK_OPEN_CURLY (txt "{"); Node TWIG_LITERAL_HASH_ITEMS [Node TWIG_LITERAL_HASH_PAIR [Node TWIG_LITERAL_HASH_KEY [Node TWIG_LITERAL_STRING [Leaf TK_WHITESPACE (txt " "); Leaf TK_SINGLE_QUOTES (txt "'"); Node TWIG_LITERAL_STRING_INNER [Leaf TK_PERCENT (txt "%"); Leaf TK_WORD (txt "total"); Leaf TK_PERCENT (txt "%")]; Leaf TK_SINGLE_QUOTES (txt "'")]]; Leaf TK_COLON (txt ":"); Node TWIG_EXPRESSION [Node TWIG_ACCESSOR [Node TWIG_OPERAND [Node TWIG_LITERAL_NAME [Leaf TK_WORD (txt "reviews")]]; Leaf TK_DOT (txt "."); Node TWIG_OPERAND [Node TWIG_LITERAL_NAME [Leaf TK_WORD (txt "totalReviews")]]]]]]; Leaf TK_WHITESPACE (txt " "); Leaf TK_CLOSE_CURLY (txt "}")]]; Leaf TK_WHITESPACE (txt " "); Leaf TK_CLOSE_CURLY_CURLY (txt "}}")]],
   []).

(** grammar/twig/literal.rs:1109 *)
Definition t_literal_1109 : ptest :=
  (txt "{{ { (foo): 'foo', (1 + 1): 'bar', (foo ~ 'b'): 'baz' } }}",
   Node ROOT [Node TWIG_VAR [Leaf TK_OPEN_CURLY_CURLY (txt "{{"); Node TWIG_EXPRESSION [Node TWIG_LITERAL_HASH [Leaf TK_WHITESPACE (txt " "); Leaf TK_OPEN_CURLY (txt "{"); Node TWIG_LITERAL_HASH_ITEMS [Node TWIG_LITERAL_HASH_PAIR [Node TWIG_LITERAL_HASH_KEY [Leaf TK_WHITESPACE (txt " "); Leaf TK_OPEN_PARENTHESIS (txt "("); Node TWIG_EXPRESSION [Node TWIG_LITERAL_NAME [Leaf TK_WORD (txt "foo")]]; Leaf TK_CLOSE_PARENTHESIS (txt ")")]; Leaf TK_COLON (txt ":"); Node TWIG_EXPRESSION [Node TWIG_LITERAL_STRING [Leaf TK_WHITESPACE (txt " "); Leaf TK_SINGLE_QUOTES (txt "'"); Node TWIG_LITERAL_STRING_INNER [Leaf TK_WORD (txt "foo")]; Leaf TK_SINGLE_QUOTES (txt "'")]]]; Leaf TK_COMMA (txt ","); Node TWIG_LITERAL_HASH_PAIR [Node TWIG_LITERAL_HASH_KEY [Leaf TK_WHITESPACE (txt " "); Leaf TK_OPEN_PARENTHESIS (txt "("); Node TWIG_EXPRESSION [Node TWIG_BINARY_EXPRESSION [Node TWIG_EXPRESSION [Node TWIG_LITERAL_NUMBER [Leaf TK_NUMBER (txt "1")]]; Leaf TK_WHITESPACE (txt " "); Leaf TK_PLUS (txt "+"); Node TWIG_EXPRESSION [Node TWIG_LITERAL_NUMBER [Leaf TK_WHITESPACE (txt " "); Leaf TK_NUMBER (txt "1")]]]]; Leaf TK_CLOSE_PARENTHESIS (txt ")")]; Leaf TK_COLON (txt ":"); Node TWIG_EXPRESSION [Node TWIG_LITERAL_STRING [Leaf TK_WHITESPACE (txt " "); Leaf TK_SINGLE_QUOTES (txt "'"); Node TWIG_LITERAL_STRING_INNER [Leaf TK_WORD (txt "bar")]; Leaf TK_SINGLE_QUOTES (txt "'")]]]; Leaf TK_COMMA (txt ","); Node TWIG_LITERAL_HASH_PAIR [Node TWIG_LITERAL_HASH_KEY [Leaf TK_WHITESPACE (txt " "); Leaf TK_OPEN_PARENTHESIS (txt "("); Node TWIG_EXPRESSION [Node TWIG_BINARY_EXPRESSION [Node TWIG_EXPRESSION [Node TWIG_LITERAL_NAME [Leaf TK_WORD (txt "foo")]]; Leaf TK_WHITESPACE (txt " "); Leaf TK_TILDE (txt "~"); Node TWIG_EXPRESSION [Node TWIG_LITERAL_STRING [Leaf TK_WHITESPACE (txt " "); Leaf TK_SINGLE_QUOTES (txt "'"); Node TWIG_LITERAL_STRING_INNER [Leaf TK_WORD (txt "b")]; Leaf TK_SINGLE_QUOTES (txt "'")]]]]; Leaf TK_CLOSE_PARENTHESIS (txt ")")]; Leaf TK_COLON (txt ":"); Node TWIG_EXPRESSION [Node TWIG_LITERAL_STRING [Leaf TK_WHITESPACE (txt " "); Leaf TK_SINGLE_QUOTES (txt "'"); Node TWIG_LITERAL_STRING_INNER [Leaf TK_WORD (txt "baz")]; Leaf TK_SINGLE_QUOTES (txt "'")]]]]; Leaf TK_WHITESPACE (txt " "); Leaf TK_CLOSE_CURLY (txt "}")]]; Leaf TK_WHITESPACE (txt " "); Leaf TK_CLOSE_CURLY_CURLY (txt "}}")]],
   []).

(** grammar/twig/literal.rs:1198 *)
Definition t_literal_1198 : ptest :=
  (txt "{{ { outer: { inner: 'hello' } } }}",
   Node ROOT [Node TWIG_VAR [Leaf TK_OPEN_CURLY_CURLY (txt "{{"); Node TWIG_EXPRESSION [Node TWIG_LITERAL_HASH [Leaf TK_WHITESPACE (txt " "); Leaf TK_OPEN_CURLY (txt "{"); Node TWIG_LITERAL_HASH_ITEMS [Node TWIG_LITERAL_HASH_PAIR [Node TWIG_LITERAL_HASH_KEY [Leaf TK_WHITESPACE (txt " "); Leaf TK_WORD (txt "outer")]; Leaf TK_COLON (txt ":"); Node TWIG_EXPRESSION [Node TWIG_LITERAL_HASH [Leaf TK_WHITESPACE (txt " "); Leaf TK_OPEN_CURLY (txt "{"); Node TWIG_LITERAL_HASH_ITEMS [Node TWIG_LITERAL_HASH_PAIR [Node TWIG_LITERAL_HASH_KEY [Leaf TK_WHITESPACE (txt " "); Leaf TK_WORD (txt "inner")]; Leaf TK_COLON (txt ":"); Node TWIG_EXPRESSION [Node TWIG_LITERAL_STRING [Leaf TK_WHITESPACE (txt " "); Leaf TK_SINGLE_QUOTES (txt "'"); Node TWIG_LITERAL_STRING_INNER [Leaf TK_WORD (txt "hello")]; Leaf TK_SINGLE_QUOTES (txt "'")]]]]; Leaf TK_WHITESPACE (txt " "); Leaf TK_CLOSE_CURLY (txt "}")]]]]; Leaf TK_WHITESPACE (txt " "); Leaf TK_CLOSE_CURLY (txt "}")]]; Leaf TK_WHITESPACE (txt " "); Leaf TK_CLOSE_CURLY_CURLY (txt "}}")]],
   []).

(** grammar/twig/literal.rs:1242 *)
Definition t_literal_1242 : ptest :=
  (txt "{{ { value, is, same, as, key } }}",
   Node ROOT [Node TWIG_VAR [Leaf TK_OPEN_CURLY_CURLY (txt "{{"); Node TWIG_EXPRESSION [Node TWIG_LITERAL_HASH [Leaf TK_WHITESPACE (txt " "); Leaf TK_OPEN_CURLY (txt "{"); Node TWIG_LITERAL_HASH_ITEMS [Node TWIG_LITERAL_HASH_PAIR [Node TWIG_LITERAL_HASH_KEY [Leaf TK_WHITESPACE (txt " "); Leaf TK_WORD (txt "value")]]; Leaf TK_COMMA (txt ","); Node TWIG_LITERAL_HASH_PAIR [Node TWIG_LITERAL_HASH_KEY [Leaf TK_WHITESPACE (txt " "); Leaf TK_WORD (txt "is")]]; Leaf TK_COMMA (txt ","); Node TWIG_LITERAL_HASH_PAIR [Node TWIG_LITERAL_HASH_KEY [Leaf TK_WHITESPACE (txt " "); Leaf TK_WORD (txt "same")]]; Leaf TK_COMMA (txt ","); Node TWIG_LITERAL_HASH_PAIR [Node TWIG_LITERAL_HASH_KEY [Leaf TK_WHITESPACE (txt " "); Leaf TK_WORD (txt "as")]]; Leaf TK_COMMA (txt ","); Node TWIG_LITERAL_HASH_PAIR [Node TWIG_LITERAL_HASH_KEY [Leaf TK_WHITESPACE (txt " "); Leaf TK_WORD (txt "key")]]]; Leaf TK_WHITESPACE (txt " "); Leaf TK_CLOSE_CURLY (txt "}")]]; Leaf TK_WHITESPACE (txt " "); Leaf TK_CLOSE_CURLY_CURLY (txt "}}")]],
   []).

(** grammar/twig/literal.rs:1286 *)
Definition t_literal_1286 : ptest :=
  (txt "{{ [1, {""foo"": ""bar""}] }}",
   Node ROOT [Node TWIG_VAR [Leaf TK_OPEN_CURLY_CURLY (txt "{{"); Node TWIG_EXPRESSION [Node TWIG_LITERAL_ARRAY [Leaf TK_WHITESPACE (txt " "); Leaf TK_OPEN_SQUARE (txt "["); Node TWIG_LITERAL_ARRAY_INNER [Node TWIG_EXPRESSION [Node TWIG_LITERAL_NUMBER [Leaf TK_NUMBER (txt "1")]]; Leaf TK_COMMA (txt ","); Node TWIG_EXPRESSION [Node TWIG_LITERAL_HASH [Leaf TK_WHITESPACE (txt " "); Leaf TK_OPEN_CURLY (txt "{"); Node TWIG_LITERAL_HASH_ITEMS [Node TWIG_LITERAL_HASH_PAIR [Node TWIG_LITERAL_HASH_KEY [Node TWIG_LITERAL_STRING [Leaf TK_DOUBLE_QUOTES (txt """"); Node TWIG_LITERAL_STRING_INNER [Leaf TK_WORD (txt "foo")]; Leaf TK_DOUBLE_QUOTES (txt """")]]; Leaf TK_COLON (txt ":"); Node TWIG_EXPRESSION [Node TWIG_LITERAL_STRING [Leaf TK_WHITESPACE (txt " "); Leaf TK_DOUBLE_QUOTES (txt """"); Node TWIG_LITERAL_STRING_INNER [Leaf TK_WORD (txt "bar")]; Leaf TK_DOUBLE_QUOTES (txt """")]]]]; Leaf TK_CLOSE_CURLY (txt "}")]]]; Leaf TK_CLOSE_SQUARE (txt "]")]]; Leaf TK_WHITESPACE (txt " "); Leaf TK_CLOSE_CURLY_CURLY (txt "}}")]],
   []).

(** grammar/twig/literal.rs:1330 *)
Definition t_literal_1330 : ptest :=
  (txt "{{ my_variable }}",
   Node ROOT [Node TWIG_VAR [Leaf TK_OPEN_CURLY_CURLY (txt "{{"); Node TWIG_EXPRESSION [Node TWIG_LITERAL_NAME [Leaf TK_WHITESPACE (txt " "); Leaf TK_WORD (txt "my_variable")]]; Leaf TK_WHITESPACE (txt " "); Leaf TK_CLOSE_CURLY_CURLY (txt "}}")]],
   []).

(** grammar/twig/literal.rs:1347 *)
Definition t_literal_1347 : ptest :=
  (txt "{{ and }}",
   Node ROOT [Node TWIG_VAR [Leaf TK_OPEN_CURLY_CURLY (txt "{{"); Node TWIG_EXPRESSION [Node TWIG_LITERAL_NAME [Leaf TK_WHITESPACE (txt " "); Leaf TK_WORD (txt "and")]]; Leaf TK_WHITESPACE (txt " "); Leaf TK_CLOSE_CURLY_CURLY (txt "}}")]],
   []).

(** grammar/twig/literal.rs:1364 *)
Definition t_literal_1364 : ptest :=
  (txt "{{ product.prices.euro }}",
   Node ROOT [Node TWIG_VAR [Leaf TK_OPEN_CURLY_CURLY (txt "{{"); Node TWIG_EXPRESSION [Node TWIG_ACCESSOR [Node TWIG_OPERAND [Node TWIG_ACCESSOR [Node TWIG_OPERAND [Node TWIG_LITERAL_NAME [Leaf TK_WHITESPACE (txt " "); Leaf TK_WORD (txt "product")]]; Leaf TK_DOT (txt "."); Node TWIG_OPERAND [Node TWIG_LITERAL_NAME [Leaf TK_WORD (txt "prices")]]]]; Leaf TK_DOT (txt "."); Node TWIG_OPERAND [Node TWIG_LITERAL_NAME [Leaf TK_WORD (txt "euro")]]]]; Leaf TK_WHITESPACE (txt " "); Leaf TK_CLOSE_CURLY_CURLY (txt "}}")]],
   []).

(** grammar/twig/literal.rs:1393 *)
Definition t_literal_1393 : ptest :=
  (txt "{{ product.price|striptags|title }}",
   Node ROOT [Node TWIG_VAR [Leaf TK_OPEN_CURLY_CURLY (txt "{{"); Node TWIG_EXPRESSION [Node TWIG_FILTER [Node TWIG_OPERAND [Node TWIG_FILTER [Node TWIG_OPERAND [Node TWIG_ACCESSOR [Node TWIG_OPERAND [Node TWIG_LITERAL_NAME [Leaf TK_WHITESPACE (txt " "); Leaf TK_WORD (txt "product")]]; Leaf TK_DOT (txt "."); Node TWIG_OPERAND [Node TWIG_LITERAL_NAME [Leaf TK_WORD (txt "price")]]]]; Leaf TK_SINGLE_PIPE (txt "|"); Node TWIG_OPERAND [Node TWIG_LITERAL_NAME [Leaf TK_WORD (txt "striptags")]]]]; Leaf TK_SINGLE_PIPE (txt "|"); Node TWIG_OPERAND [Node TWIG_LITERAL_NAME [Leaf TK_WORD (txt "title")]]]]; Leaf TK_WHITESPACE (txt " "); Leaf TK_CLOSE_CURLY_CURLY (txt "}}")]],
   []).

(** grammar/twig/literal.rs:1428 *)
Definition t_literal_1428 : ptest :=
  (txt "{{ product.prices['eur'] }}",
   Node ROOT [Node TWIG_VAR [Leaf TK_OPEN_CURLY_CURLY (txt "{{"); Node TWIG_EXPRESSION [Node TWIG_INDEX_LOOKUP [Node TWIG_OPERAND [Node TWIG_ACCESSOR [Node TWIG_OPERAND [Node TWIG_LITERAL_NAME [Leaf TK_WHITESPACE (txt " "); Leaf TK_WORD (txt "product")]]; Leaf TK_DOT (txt "."); Node TWIG_OPERAND [Node TWIG_LITERAL_NAME [Leaf TK_WORD (txt "prices")]]]]; Leaf TK_OPEN_SQUARE (txt "["); Node TWIG_INDEX [Node TWIG_EXPRESSION [Node TWIG_LITERAL_STRING [Leaf TK_SINGLE_QUOTES (txt "'"); Node TWIG_LITERAL_STRING_INNER [Leaf TK_WORD (txt "eur")]; Leaf TK_SINGLE_QUOTES (txt "'")]]]; Leaf TK_CLOSE_SQUARE (txt "]")]]; Leaf TK_WHITESPACE (txt " "); Leaf TK_CLOSE_CURLY_CURLY (txt "}}")]],
   []).

(** grammar/twig/literal.rs:1462 *)
Definition t_literal_1462 : ptest :=
  (txt "{{ product.prices['eur'][0] }}",
   Node ROOT [Node TWIG_VAR [Leaf TK_OPEN_CURLY_CURLY (txt "{{"); Node TWIG_EXPRESSION [Node TWIG_INDEX_LOOKUP [Node TWIG_OPERAND [Node TWIG_INDEX_LOOKUP [Node TWIG_OPERAND [Node TWIG_ACCESSOR [Node TWIG_OPERAND [Node TWIG_LITERAL_NAME [Leaf TK_WHITESPACE (txt " "); Leaf TK_WORD (txt "product")]]; Leaf TK_DOT (txt "."); Node TWIG_OPERAND [Node TWIG_LITERAL_NAME [Leaf TK_WORD (txt "prices")]]]]; Leaf TK_OPEN_SQUARE (txt "["); Node TWIG_INDEX [Node TWIG_EXPRESSION [Node TWIG_LITERAL_STRING [Leaf TK_SINGLE_QUOTES (txt "'"); Node TWIG_LITERAL_STRING_INNER [Leaf TK_WORD (txt "eur")]; Leaf TK_SINGLE_QUOTES (txt "'")]]]; Leaf TK_CLOSE_SQUARE (txt "]")]]; Leaf TK_OPEN_SQUARE (txt "["); Node TWIG_INDEX [Node TWIG_EXPRESSION [Node TWIG_LITERAL_NUMBER [Leaf TK_NUMBER (txt "0")]]]; Leaf TK_CLOSE_SQUARE (txt "]")]]; Leaf TK_WHITESPACE (txt " "); Leaf TK_CLOSE_CURLY_CURLY (txt "}}")]],
   []).

(** grammar/twig/literal.rs:1504 *)
Definition t_literal_1504 : ptest :=
  (txt "{{ product.prices['eur'].0 }}",
   Node ROOT [Node TWIG_VAR [Leaf TK_OPEN_CURLY_CURLY (txt "{{"); Node TWIG_EXPRESSION [Node TWIG_INDEX_LOOKUP [Node TWIG_OPERAND [Node TWIG_INDEX_LOOKUP [Node TWIG_OPERAND [Node TWIG_ACCESSOR [Node TWIG_OPERAND [Node TWIG_LITERAL_NAME [Leaf TK_WHITESPACE (txt " "); Leaf TK_WORD (txt "product")]]; Leaf TK_DOT (txt "."); Node TWIG_OPERAND [Node TWIG_LITERAL_NAME [Leaf TK_WORD (txt "prices")]]]]; Leaf TK_OPEN_SQUARE (txt "["); Node TWIG_INDEX [Node TWIG_EXPRESSION [Node TWIG_LITERAL_STRING [Leaf TK_SINGLE_QUOTES (txt "'"); Node TWIG_LITERAL_STRING_INNER [Leaf TK_WORD (txt "eur")]; Leaf TK_SINGLE_QUOTES (txt "'")]]]; Leaf TK_CLOSE_SQUARE (txt "]")]]; Leaf TK_DOT (txt "."); Node TWIG_INDEX [Node TWIG_EXPRESSION [Node TWIG_LITERAL_NUMBER [Leaf TK_NUMBER (txt "0")]]]]]; Leaf TK_WHITESPACE (txt " "); Leaf TK_CLOSE_CURLY_CURLY (txt "}}")]],
   []).

(** grammar/twig/literal.rs:1545 *)
Definition t_literal_1545 : ptest :=
  (txt "{{ product.tags.0.name }}",
   Node ROOT [Node TWIG_VAR [Leaf TK_OPEN_CURLY_CURLY (txt "{{"); Node TWIG_EXPRESSION [Node TWIG_ACCESSOR [Node TWIG_OPERAND [Node TWIG_INDEX_LOOKUP [Node TWIG_OPERAND [Node TWIG_ACCESSOR [Node TWIG_OPERAND [Node TWIG_LITERAL_NAME [Leaf TK_WHITESPACE (txt " "); Leaf TK_WORD (txt "product")]]; Leaf TK_DOT (txt "."); Node TWIG_OPERAND [Node TWIG_LITERAL_NAME [Leaf TK_WORD (txt "tags")]]]]; Leaf TK_DOT (txt "."); Node TWIG_INDEX [Node TWIG_EXPRESSION [Node TWIG_LITERAL_NUMBER [Leaf TK_NUMBER (txt "0")]]]]]; Leaf TK_DOT (txt "."); Node TWIG_OPERAND [Node TWIG_LITERAL_NAME [Leaf TK_WORD (txt "name")]]]]; Leaf TK_WHITESPACE (txt " "); Leaf TK_CLOSE_CURLY_CURLY (txt "}}")]],
   []).

(** grammar/twig/literal.rs:1581 *)
Definition t_literal_1581 : ptest :=
  (txt "{{ prices[0:10] }}",
   Node ROOT [Node TWIG_VAR [Leaf TK_OPEN_CURLY_CURLY (txt "{{"); Node TWIG_EXPRESSION [Node TWIG_INDEX_LOOKUP [Node TWIG_OPERAND [Node TWIG_LITERAL_NAME [Leaf TK_WHITESPACE (txt " "); Leaf TK_WORD (txt "prices")]]; Leaf TK_OPEN_SQUARE (txt "["); Node TWIG_INDEX_RANGE [Node TWIG_EXPRESSION [Node TWIG_LITERAL_NUMBER [Leaf TK_NUMBER (txt "0")]]; Leaf TK_COLON (txt ":"); Node TWIG_EXPRESSION [Node TWIG_LITERAL_NUMBER [Leaf TK_NUMBER (txt "10")]]]; Leaf TK_CLOSE_SQUARE (txt "]")]]; Leaf TK_WHITESPACE (txt " "); Leaf TK_CLOSE_CURLY_CURLY (txt "}}")]],
   []).

(** grammar/twig/literal.rs:1610 *)
Definition t_literal_1610 : ptest :=
  (txt "{{ prices[10:] }}",
   Node ROOT [Node TWIG_VAR [Leaf TK_OPEN_CURLY_CURLY (txt "{{"); Node TWIG_EXPRESSION [Node TWIG_INDEX_LOOKUP [Node TWIG_OPERAND [Node TWIG_LITERAL_NAME [Leaf TK_WHITESPACE (txt " "); Leaf TK_WORD (txt "prices")]]; Leaf TK_OPEN_SQUARE (txt "["); Node TWIG_INDEX_RANGE [Node TWIG_EXPRESSION [Node TWIG_LITERAL_NUMBER [Leaf TK_NUMBER (txt "10")]]; Leaf TK_COLON (txt ":")]; Leaf TK_CLOSE_SQUARE (txt "]")]]; Leaf TK_WHITESPACE (txt " "); Leaf TK_CLOSE_CURLY_CURLY (txt "}}")]],
   []).

(** grammar/twig/literal.rs:1636 *)
Definition t_literal_1636 : ptest :=
  (txt "{{ prices[:10] }}",
   Node ROOT [Node TWIG_VAR [Leaf TK_OPEN_CURLY_CURLY (txt "{{"); Node TWIG_EXPRESSION [Node TWIG_INDEX_LOOKUP [Node TWIG_OPERAND [Node TWIG_LITERAL_NAME [Leaf TK_WHITESPACE (txt " "); Leaf TK_WORD (txt "prices")]]; Leaf TK_OPEN_SQUARE (txt "["); Node TWIG_INDEX_RANGE [Leaf TK_COLON (txt ":"); Node TWIG_EXPRESSION [Node TWIG_LITERAL_NUMBER [Leaf TK_NUMBER (txt "10")]]]; Leaf TK_CLOSE_SQUARE (txt "]")]]; Leaf TK_WHITESPACE (txt " "); Leaf TK_CLOSE_CURLY_CURLY (txt "}}")]],
   []).

(** grammar/twig/literal.rs:1662 *)
Definition t_literal_1662 : ptest :=
  (txt "{{ prices[:-2] }}",
   Node ROOT [Node TWIG_VAR [Leaf TK_OPEN_CURLY_CURLY (txt "{{"); Node TWIG_EXPRESSION [Node TWIG_INDEX_LOOKUP [Node TWIG_OPERAND [Node TWIG_LITERAL_NAME [Leaf TK_WHITESPACE (txt " "); Leaf TK_WORD (txt "prices")]]; Leaf TK_OPEN_SQUARE (txt "["); Node TWIG_INDEX_RANGE [Leaf TK_COLON (txt ":"); Node TWIG_EXPRESSION [Node TWIG_UNARY_EXPRESSION [Leaf TK_MINUS (txt "-"); Node TWIG_EXPRESSION [Node TWIG_LITERAL_NUMBER [Leaf TK_NUMBER (txt "2")]]]]]; Leaf TK_CLOSE_SQUARE (txt "]")]]; Leaf TK_WHITESPACE (txt " "); Leaf TK_CLOSE_CURLY_CURLY (txt "}}")]],
   []).

(** grammar/twig/literal.rs:1691 *)
Definition t_literal_1691 : ptest :=
  (txt "{{ prices[:upperLimit] }}",
   Node ROOT [Node TWIG_VAR [Leaf TK_OPEN_CURLY_CURLY (txt "{{"); Node TWIG_EXPRESSION [Node TWIG_INDEX_LOOKUP [Node TWIG_OPERAND [Node TWIG_LITERAL_NAME [Leaf TK_WHITESPACE (txt " "); Leaf TK_WORD (txt "prices")]]; Leaf TK_OPEN_SQUARE (txt "["); Node TWIG_INDEX_RANGE [Leaf TK_COLON (txt ":"); Node TWIG_EXPRESSION [Node TWIG_LITERAL_NAME [Leaf TK_WORD (txt "upperLimit")]]]; Leaf TK_CLOSE_SQUARE (txt "]")]]; Leaf TK_WHITESPACE (txt " "); Leaf TK_CLOSE_CURLY_CURLY (txt "}}")]],
   []).

(** grammar/twig/literal.rs:1717 *)
Definition t_literal_1717 : ptest :=
  (txt "{{ prices[upperLimit:] }}",
   Node ROOT [Node TWIG_VAR [Leaf TK_OPEN_CURLY_CURLY (txt "{{"); Node TWIG_EXPRESSION [Node TWIG_INDEX_LOOKUP [Node TWIG_OPERAND [Node TWIG_LITERAL_NAME [Leaf TK_WHITESPACE (txt " "); Leaf TK_WORD (txt "prices")]]; Leaf TK_OPEN_SQUARE (txt "["); Node TWIG_INDEX_RANGE [Node TWIG_EXPRESSION [Node TWIG_LITERAL_NAME [Leaf TK_WORD (txt "upperLimit")]]; Leaf TK_COLON (txt ":")]; Leaf TK_CLOSE_SQUARE (txt "]")]]; Leaf TK_WHITESPACE (txt " "); Leaf TK_CLOSE_CURLY_CURLY (txt "}}")]],
   []).

(** grammar/twig/literal.rs:1743 *)
Definition t_literal_1743 : ptest :=
  (txt "{{ prices[] }}",
   Node ROOT [Node TWIG_VAR [Leaf TK_OPEN_CURLY_CURLY (txt "{{"); Node TWIG_EXPRESSION [Node TWIG_INDEX_LOOKUP [Node TWIG_OPERAND [Node TWIG_LITERAL_NAME [Leaf TK_WHITESPACE (txt " "); Leaf TK_WORD (txt "prices")]]; Leaf TK_OPEN_SQUARE (txt "["); Node TWIG_INDEX []; Leaf TK_CLOSE_SQUARE (txt "]")]]; Leaf TK_WHITESPACE (txt " "); Leaf TK_CLOSE_CURLY_CURLY (txt "}}")]],
   [txt "error at 10..11: expected twig expression but found ]"]).

(** grammar/twig/literal.rs:1766 *)
Definition t_literal_1766 : ptest :=
  (txt "{{ product.prices['eur'][0]|title }}",
   Node ROOT [Node TWIG_VAR [Leaf TK_OPEN_CURLY_CURLY (txt "{{"); Node TWIG_EXPRESSION [Node TWIG_FILTER [Node TWIG_OPERAND [Node TWIG_INDEX_LOOKUP [Node TWIG_OPERAND [Node TWIG_INDEX_LOOKUP [Node TWIG_OPERAND [Node TWIG_ACCESSOR [Node TWIG_OPERAND [Node TWIG_LITERAL_NAME [Leaf TK_WHITESPACE (txt " "); Leaf TK_WORD (txt "product")]]; Leaf TK_DOT (txt "."); Node TWIG_OPERAND [Node TWIG_LITERAL_NAME [Leaf TK_WORD (txt "prices")]]]]; Leaf TK_OPEN_SQUARE (txt "["); Node TWIG_INDEX [Node TWIG_EXPRESSION [Node TWIG_LITERAL_STRING [Leaf TK_SINGLE_QUOTES (txt "'"); Node TWIG_LITERAL_STRING_INNER [Leaf TK_WORD (txt "eur")]; Leaf TK_SINGLE_QUOTES (txt "'")]]]; Leaf TK_CLOSE_SQUARE (txt "]")]]; Leaf TK_OPEN_SQUARE (txt "["); Node TWIG_INDEX [Node TWIG_EXPRESSION [Node TWIG_LITERAL_NUMBER [Leaf TK_NUMBER (txt "0")]]]; Leaf TK_CLOSE_SQUARE (txt "]")]]; Leaf TK_SINGLE_PIPE (txt "|"); Node TWIG_OPERAND [Node TWIG_LITERAL_NAME [Leaf TK_WORD (txt "title")]]]]; Leaf TK_WHITESPACE (txt " "); Leaf TK_CLOSE_CURLY_CURLY (txt "}}")]],
   []).

(** grammar/twig/literal.rs:1814 *)
Definition t_literal_1814 : ptest :=
  (txt "{{ product.prices('eur').gross }}",
   Node ROOT [Node TWIG_VAR [Leaf TK_OPEN_CURLY_CURLY (txt "{{"); Node TWIG_EXPRESSION [Node TWIG_ACCESSOR [Node TWIG_OPERAND [Node TWIG_FUNCTION_CALL [Node TWIG_OPERAND [Node TWIG_ACCESSOR [Node TWIG_OPERAND [Node TWIG_LITERAL_NAME [Leaf TK_WHITESPACE (txt " "); Leaf TK_WORD (txt "product")]]; Leaf TK_DOT (txt "."); Node TWIG_OPERAND [Node TWIG_LITERAL_NAME [Leaf TK_WORD (txt "prices")]]]]; Node TWIG_ARGUMENTS [Leaf TK_OPEN_PARENTHESIS (txt "("); Node TWIG_EXPRESSION [Node TWIG_LITERAL_STRING [Leaf TK_SINGLE_QUOTES (txt "'"); Node TWIG_LITERAL_STRING_INNER [Leaf TK_WORD (txt "eur")]; Leaf TK_SINGLE_QUOTES (txt "'")]]; Leaf TK_CLOSE_PARENTHESIS (txt ")")]]]; Leaf TK_DOT (txt "."); Node TWIG_OPERAND [Node TWIG_LITERAL_NAME [Leaf TK_WORD (txt "gross")]]]]; Leaf TK_WHITESPACE (txt " "); Leaf TK_CLOSE_CURLY_CURLY (txt "}}")]],
   []).

(** grammar/twig/literal.rs:1854 *)
Definition t_literal_1854 : ptest :=
  (txt "{{ product.prices.gross('eur').gross }}",
   Node ROOT [Node TWIG_VAR [Leaf TK_OPEN_CURLY_CURLY (txt "{{"); Node TWIG_EXPRESSION [Node TWIG_ACCESSOR [Node TWIG_OPERAND [Node TWIG_FUNCTION_CALL [Node TWIG_OPERAND [Node TWIG_ACCESSOR [Node TWIG_OPERAND [Node TWIG_ACCESSOR [Node TWIG_OPERAND [Node TWIG_LITERAL_NAME [Leaf TK_WHITESPACE (txt " "); Leaf TK_WORD (txt "product")]]; Leaf TK_DOT (txt "."); Node TWIG_OPERAND [Node TWIG_LITERAL_NAME [Leaf TK_WORD (txt "prices")]]]]; Leaf TK_DOT (txt "."); Node TWIG_OPERAND [Node TWIG_LITERAL_NAME [Leaf TK_WORD (txt "gross")]]]]; Node TWIG_ARGUMENTS [Leaf TK_OPEN_PARENTHESIS (txt "("); Node TWIG_EXPRESSION [Node TWIG_LITERAL_STRING [Leaf TK_SINGLE_QUOTES (txt "'"); Node TWIG_LITERAL_STRING_INNER [Leaf TK_WORD (txt "eur")]; Leaf TK_SINGLE_QUOTES (txt "'")]]; Leaf TK_CLOSE_PARENTHESIS (txt ")")]]]; Leaf TK_DOT (txt "."); Node TWIG_OPERAND [Node TWIG_LITERAL_NAME [Leaf TK_WORD (txt "gross")]]]]; Leaf TK_WHITESPACE (txt " "); Leaf TK_CLOSE_CURLY_CURLY (txt "}}")]],
   []).

(** grammar/twig/literal.rs:1900 *)
Definition t_literal_1900 : ptest :=
  (txt "{{ doIt() }}",
   Node ROOT [Node TWIG_VAR [Leaf TK_OPEN_CURLY_CURLY (txt "{{"); Node TWIG_EXPRESSION [Node TWIG_FUNCTION_CALL [Node TWIG_OPERAND [Node TWIG_LITERAL_NAME [Leaf TK_WHITESPACE (txt " "); Leaf TK_WORD (txt "doIt")]]; Node TWIG_ARGUMENTS [Leaf TK_OPEN_PARENTHESIS (txt "("); Leaf TK_CLOSE_PARENTHESIS (txt ")")]]]; Leaf TK_WHITESPACE (txt " "); Leaf TK_CLOSE_CURLY_CURLY (txt "}}")]],
   []).

(** grammar/twig/literal.rs:1922 *)
Definition t_literal_1922 : ptest :=
  (txt "{{ sum(1, 2) }}",
   Node ROOT [Node TWIG_VAR [Leaf TK_OPEN_CURLY_CURLY (txt "{{"); Node TWIG_EXPRESSION [Node TWIG_FUNCTION_CALL [Node TWIG_OPERAND [Node TWIG_LITERAL_NAME [Leaf TK_WHITESPACE (txt " "); Leaf TK_WORD (txt "sum")]]; Node TWIG_ARGUMENTS [Leaf TK_OPEN_PARENTHESIS (txt "("); Node TWIG_EXPRESSION [Node TWIG_LITERAL_NUMBER [Leaf TK_NUMBER (txt "1")]]; Leaf TK_COMMA (txt ","); Node TWIG_EXPRESSION [Node TWIG_LITERAL_NUMBER [Leaf TK_WHITESPACE (txt " "); Leaf TK_NUMBER (txt "2")]]; Leaf TK_CLOSE_PARENTHESIS (txt ")")]]]; Leaf TK_WHITESPACE (txt " "); Leaf TK_CLOSE_CURLY_CURLY (txt "}}")]],
   []).

(** grammar/twig/literal.rs:1952 *)
Definition t_literal_1952 : ptest :=
  (txt "{{ sum(a=1, b=2) }}",
   Node ROOT [Node TWIG_VAR [Leaf TK_OPEN_CURLY_CURLY (txt "{{"); Node TWIG_EXPRESSION [Node TWIG_FUNCTION_CALL [Node TWIG_OPERAND [Node TWIG_LITERAL_NAME [Leaf TK_WHITESPACE (txt " "); Leaf TK_WORD (txt "sum")]]; Node TWIG_ARGUMENTS [Leaf TK_OPEN_PARENTHESIS (txt "("); Node TWIG_NAMED_ARGUMENT [Leaf TK_WORD (txt "a"); Leaf TK_EQUAL (txt "="); Node TWIG_EXPRESSION [Node TWIG_LITERAL_NUMBER [Leaf TK_NUMBER (txt "1")]]]; Leaf TK_COMMA (txt ","); Node TWIG_NAMED_ARGUMENT [Leaf TK_WHITESPACE (txt " "); Leaf TK_WORD (txt "b"); Leaf TK_EQUAL (txt "="); Node TWIG_EXPRESSION [Node TWIG_LITERAL_NUMBER [Leaf TK_NUMBER (txt "2")]]]; Leaf TK_CLOSE_PARENTHESIS (txt ")")]]]; Leaf TK_WHITESPACE (txt " "); Leaf TK_CLOSE_CURLY_CURLY (txt "}}")]],
   []).

(** grammar/twig/literal.rs:1988 *)
Definition t_literal_1988 : ptest :=
  (txt "{{ sum(1, b=my_number) }}",
   Node ROOT [Node TWIG_VAR [Leaf TK_OPEN_CURLY_CURLY (txt "{{"); Node TWIG_EXPRESSION [Node TWIG_FUNCTION_CALL [Node TWIG_OPERAND [Node TWIG_LITERAL_NAME [Leaf TK_WHITESPACE (txt " "); Leaf TK_WORD (txt "sum")]]; Node TWIG_ARGUMENTS [Leaf TK_OPEN_PARENTHESIS (txt "("); Node TWIG_EXPRESSION [Node TWIG_LITERAL_NUMBER [Leaf TK_NUMBER (txt "1")]]; Leaf TK_COMMA (txt ","); Node TWIG_NAMED_ARGUMENT [Leaf TK_WHITESPACE (txt " "); Leaf TK_WORD (txt "b"); Leaf TK_EQUAL (txt "="); Node TWIG_EXPRESSION [Node TWIG_LITERAL_NAME [Leaf TK_WORD (txt "my_number")]]]; Leaf TK_CLOSE_PARENTHESIS (txt ")")]]]; Leaf TK_WHITESPACE (txt " "); Leaf TK_CLOSE_CURLY_CURLY (txt "}}")]],
   []).

(** grammar/twig/literal.rs:2021 *)
Definition t_literal_2021 : ptest :=
  (txt "{{ sum(1, sin(1)) }}",
   Node ROOT [Node TWIG_VAR [Leaf TK_OPEN_CURLY_CURLY (txt "{{"); Node TWIG_EXPRESSION [Node TWIG_FUNCTION_CALL [Node TWIG_OPERAND [Node TWIG_LITERAL_NAME [Leaf TK_WHITESPACE (txt " "); Leaf TK_WORD (txt "sum")]]; Node TWIG_ARGUMENTS [Leaf TK_OPEN_PARENTHESIS (txt "("); Node TWIG_EXPRESSION [Node TWIG_LITERAL_NUMBER [Leaf TK_NUMBER (txt "1")]]; Leaf TK_COMMA (txt ","); Node TWIG_EXPRESSION [Node TWIG_FUNCTION_CALL [Node TWIG_OPERAND [Node TWIG_LITERAL_NAME [Leaf TK_WHITESPACE (txt " "); Leaf TK_WORD (txt "sin")]]; Node TWIG_ARGUMENTS [Leaf TK_OPEN_PARENTHESIS (txt "("); Node TWIG_EXPRESSION [Node TWIG_LITERAL_NUMBER [Leaf TK_NUMBER (txt "1")]]; Leaf TK_CLOSE_PARENTHESIS (txt ")")]]]; Leaf TK_CLOSE_PARENTHESIS (txt ")")]]]; Leaf TK_WHITESPACE (txt " "); Leaf TK_CLOSE_CURLY_CURLY (txt "}}")]],
   []).

(** grammar/twig/literal.rs:2059 *)
Definition t_literal_2059 : ptest :=
  (txt "{% set my_arrow_function = i => i % 2 %}",
   Node ROOT [Node TWIG_SET [Node TWIG_SET_BLOCK [Leaf TK_CURLY_PERCENT (txt "{%"); Leaf TK_WHITESPACE (txt " "); Leaf TK_SET (txt "set"); Node TWIG_ASSIGNMENT [Node TWIG_LITERAL_NAME [Leaf TK_WHITESPACE (txt " "); Leaf TK_WORD (txt "my_arrow_function")]; Leaf TK_WHITESPACE (txt " "); Leaf TK_EQUAL (txt "="); Node TWIG_EXPRESSION [Node TWIG_ARROW_FUNCTION [Node TWIG_ARGUMENTS [Node TWIG_LITERAL_NAME [Leaf TK_WHITESPACE (txt " "); Leaf TK_WORD (txt "i")]]; Leaf TK_WHITESPACE (txt " "); Leaf TK_EQUAL_GREATER_THAN (txt "=>"); Node TWIG_EXPRESSION [Node TWIG_BINARY_EXPRESSION [Node TWIG_EXPRESSION [Node TWIG_LITERAL_NAME [Leaf TK_WHITESPACE (txt " "); Leaf TK_WORD (txt "i")]]; Leaf TK_WHITESPACE (txt " "); Leaf TK_PERCENT (txt "%"); Node TWIG_EXPRESSION [Node TWIG_LITERAL_NUMBER [Leaf TK_WHITESPACE (txt " "); Leaf TK_NUMBER (txt "2")]]]]]]]; Leaf TK_WHITESPACE (txt " "); Leaf TK_PERCENT_CURLY (txt "%}")]]],
   []).

(** grammar/twig/literal.rs:2101 *)
Definition t_literal_2101 : ptest :=
  (txt "{% set my_arrow_function = (i) => i % 2 %}",
   Node ROOT [Node TWIG_SET [Node TWIG_SET_BLOCK [Leaf TK_CURLY_PERCENT (txt "{%"); Leaf TK_WHITESPACE (txt " "); Leaf TK_SET (txt "set"); Node TWIG_ASSIGNMENT [Node TWIG_LITERAL_NAME [Leaf TK_WHITESPACE (txt " "); Leaf TK_WORD (txt "my_arrow_function")]; Leaf TK_WHITESPACE (txt " "); Leaf TK_EQUAL (txt "="); Node TWIG_EXPRESSION [Node TWIG_ARROW_FUNCTION [Node TWIG_ARGUMENTS [Leaf TK_WHITESPACE (txt " "); Leaf TK_OPEN_PARENTHESIS (txt "("); Node TWIG_LITERAL_NAME [Leaf TK_WORD (txt "i")]; Leaf TK_CLOSE_PARENTHESIS (txt ")")]; Leaf TK_WHITESPACE (txt " "); Leaf TK_EQUAL_GREATER_THAN (txt "=>"); Node TWIG_EXPRESSION [Node TWIG_BINARY_EXPRESSION [Node TWIG_EXPRESSION [Node TWIG_LITERAL_NAME [Leaf TK_WHITESPACE (txt " "); Leaf TK_WORD (txt "i")]]; Leaf TK_WHITESPACE (txt " "); Leaf TK_PERCENT (txt "%"); Node TWIG_EXPRESSION [Node TWIG_LITERAL_NUMBER [Leaf TK_WHITESPACE (txt " "); Leaf TK_NUMBER (txt "2")]]]]]]]; Leaf TK_WHITESPACE (txt " "); Leaf TK_PERCENT_CURLY (txt "%}")]]],
   []).

(** grammar/twig/literal.rs:2145 *)
Definition t_literal_2145 : ptest :=
  (txt "{% set my_arrow_function = (a, b) => a >= b %}",
   Node ROOT [Node TWIG_SET [Node TWIG_SET_BLOCK [Leaf TK_CURLY_PERCENT (txt "{%"); Leaf TK_WHITESPACE (txt " "); Leaf TK_SET (txt "set"); Node TWIG_ASSIGNMENT [Node TWIG_LITERAL_NAME [Leaf TK_WHITESPACE (txt " "); Leaf TK_WORD (txt "my_arrow_function")]; Leaf TK_WHITESPACE (txt " "); Leaf TK_EQUAL (txt "="); Node TWIG_EXPRESSION [Node TWIG_ARROW_FUNCTION [Node TWIG_ARGUMENTS [Leaf TK_WHITESPACE (txt " "); Leaf TK_OPEN_PARENTHESIS (txt "("); Node TWIG_LITERAL_NAME [Leaf TK_WORD (txt "a")]; Leaf TK_COMMA (txt ","); Node TWIG_LITERAL_NAME [Leaf TK_WHITESPACE (txt " "); Leaf TK_WORD (txt "b")]; Leaf TK_CLOSE_PARENTHESIS (txt ")")]; Leaf TK_WHITESPACE (txt " "); Leaf TK_EQUAL_GREATER_THAN (txt "=>"); Node TWIG_EXPRESSION [Node TWIG_BINARY_EXPRESSION [Node TWIG_EXPRESSION [Node TWIG_LITERAL_NAME [Leaf TK_WHITESPACE (txt " "); Leaf TK_WORD (txt "a")]]; Leaf TK_WHITESPACE (txt " "); Leaf TK_GREATER_THAN_EQUAL (txt ">="); Node TWIG_EXPRESSION [Node TWIG_LITERAL_NAME [Leaf TK_WHITESPACE (txt " "); Leaf TK_WORD (txt "b")]]]]]]]; Leaf TK_WHITESPACE (txt " "); Leaf TK_PERCENT_CURLY (txt "%}")]]],
   []).

(** grammar/twig/literal.rs:2193 *)
Definition t_literal_2193 : ptest :=
  (txt "{% for item in crossSellings|filter(item => item.total > 0 and item.crossSelling.active == true) %} {{ item }} {% endfor %}",
   Node ROOT [Node TWIG_FOR [Node TWIG_FOR_BLOCK [Leaf TK_CURLY_PERCENT (txt "{%"); Leaf TK_WHITESPACE (txt " "); Leaf TK_FOR (txt "for"); Node TWIG_LITERAL_NAME [Leaf TK_WHITESPACE (txt " "); Leaf TK_WORD (txt "item")]; Leaf TK_WHITESPACE (txt " "); Leaf TK_IN (txt "in"); Node TWIG_EXPRESSION [Node TWIG_FILTER [Node TWIG_OPERAND [Node TWIG_LITERAL_NAME [Leaf TK_WHITESPACE (txt " "); Leaf TK_WORD (txt "crossSellings")]]; Leaf TK_SINGLE_PIPE (txt "|"); Node TWIG_OPERAND [Node TWIG_LITERAL_NAME [Leaf TK_WORD (txt "filter")]; Node TWIG_ARGUMENTS [Leaf TK_OPEN_PARENTHESIS (txt "("); Node TWIG_EXPRESSION [Node TWIG_ARROW_FUNCTION [Node TWIG_ARGUMENTS [Node TWIG_LITERAL_NAME [Leaf TK_WORD (txt "item")]]; Leaf TK_WHITESPACE (txt " "); Leaf TK_EQUAL_GREATER_THAN (txt "=>"); Node TWIG_EXPRESSION [Node TWIG_BINARY_EXPRESSION [Node TWIG_BINARY_EXPRESSION [Node TWIG_EXPRESSION [Node TWIG_ACCESSOR [Node TWIG_OPERAND [Node TWIG_LITERAL_NAME [Leaf TK_WHITESPACE (txt " "); Leaf TK_WORD (txt "item")]]; Leaf TK_DOT (txt "."); Node TWIG_OPERAND [Node TWIG_LITERAL_NAME [Leaf TK_WORD (txt "total")]]]]; Leaf TK_WHITESPACE (txt " "); Leaf TK_GREATER_THAN (txt ">"); Node TWIG_EXPRESSION [Node TWIG_LITERAL_NUMBER [Leaf TK_WHITESPACE (txt " "); Leaf TK_NUMBER (txt "0")]]]; Leaf TK_WHITESPACE (txt " "); Leaf TK_AND (txt "and"); Node TWIG_EXPRESSION [Node TWIG_BINARY_EXPRESSION [Node TWIG_EXPRESSION [Node TWIG_ACCESSOR [Node TWIG_OPERAND [Node TWIG_ACCESSOR [Node TWIG_OPERAND [Node TWIG_LITERAL_NAME [Leaf TK_WHITESPACE (txt " "); Leaf TK_WORD (txt "item")]]; Leaf TK_DOT (txt "."); Node TWIG_OPERAND [Node TWIG_LITERAL_NAME [Leaf TK_WORD (txt "crossSelling")]]]]; Leaf TK_DOT (txt "."); Node TWIG_OPERAND [Node TWIG_LITERAL_NAME [Leaf TK_WORD (txt "active")]]]]; Leaf TK_WHITESPACE (txt " "); Leaf TK_DOUBLE_EQUAL (txt "=="); Node TWIG_EXPRESSION [Node TWIG_LITERAL_BOOLEAN [Leaf TK_WHITESPACE (txt " "); Leaf TK_TRUE (txt "true")]]]]]]]]; Leaf TK_CLOSE_PARENTHESIS (txt ")")]]]]; Leaf TK_WHITESPACE (txt " "); Leaf TK_PERCENT_CURLY (txt "%}")]; Node BODY [Node TWIG_VAR [Leaf TK_WHITESPACE (txt " "); Leaf TK_OPEN_CURLY_CURLY (txt "{{"); Node TWIG_EXPRESSION [Node TWIG_LITERAL_NAME [Leaf TK_WHITESPACE (txt " "); Leaf TK_WORD (txt "item")]]; Leaf TK_WHITESPACE (txt " "); Leaf TK_CLOSE_CURLY_CURLY (txt "}}")]]; Node TWIG_ENDFOR_BLOCK [Leaf TK_WHITESPACE (txt " "); Leaf TK_CURLY_PERCENT (txt "{%"); Leaf TK_WHITESPACE (txt " "); Leaf TK_ENDFOR (txt "endfor"); Leaf TK_WHITESPACE (txt " "); Leaf TK_PERCENT_CURLY (txt "%}")]]],
   []).

(** grammar/twig/literal.rs:2296 *)
Definition t_literal_2296 : ptest :=
  (txt "{{ list|join(', ') }}",
   Node ROOT [Node TWIG_VAR [Leaf TK_OPEN_CURLY_CURLY (txt "{{"); Node TWIG_EXPRESSION [Node TWIG_FILTER [Node TWIG_OPERAND [Node TWIG_LITERAL_NAME [Leaf TK_WHITESPACE (txt " "); Leaf TK_WORD (txt "list")]]; Leaf TK_SINGLE_PIPE (txt "|"); Node TWIG_OPERAND [Node TWIG_LITERAL_NAME [Leaf TK_WORD (txt "join")]; Node TWIG_ARGUMENTS [Leaf TK_OPEN_PARENTHESIS (txt "("); Node TWIG_EXPRESSION [Node TWIG_LITERAL_STRING [Leaf TK_SINGLE_QUOTES (txt "'"); Node TWIG_LITERAL_STRING_INNER [Leaf TK_COMMA (txt ","); Leaf TK_WHITESPACE (txt " ")]; Leaf TK_SINGLE_QUOTES (txt "'")]]; Leaf TK_CLOSE_PARENTHESIS (txt ")")]]]]; Leaf TK_WHITESPACE (txt " "); Leaf TK_CLOSE_CURLY_CURLY (txt "}}")]],
   []).

(** grammar/twig/literal.rs:2329 *)
Definition t_literal_2329 : ptest :=
  (txt "{{ list|join(', ')|trim }}",
   Node ROOT [Node TWIG_VAR [Leaf TK_OPEN_CURLY_CURLY (txt "{{"); Node TWIG_EXPRESSION [Node TWIG_FILTER [Node TWIG_OPERAND [Node TWIG_FILTER [Node TWIG_OPERAND [Node TWIG_LITERAL_NAME [Leaf TK_WHITESPACE (txt " "); Leaf TK_WORD (txt "list")]]; Leaf TK_SINGLE_PIPE (txt "|"); Node TWIG_OPERAND [Node TWIG_LITERAL_NAME [Leaf TK_WORD (txt "join")]; Node TWIG_ARGUMENTS [Leaf TK_OPEN_PARENTHESIS (txt "("); Node TWIG_EXPRESSION [Node TWIG_LITERAL_STRING [Leaf TK_SINGLE_QUOTES (txt "'"); Node TWIG_LITERAL_STRING_INNER [Leaf TK_COMMA (txt ","); Leaf TK_WHITESPACE (txt " ")]; Leaf TK_SINGLE_QUOTES (txt "'")]]; Leaf TK_CLOSE_PARENTHESIS (txt ")")]]]]; Leaf TK_SINGLE_PIPE (txt "|"); Node TWIG_OPERAND [Node TWIG_LITERAL_NAME [Leaf TK_WORD (txt "trim")]]]]; Leaf TK_WHITESPACE (txt " "); Leaf TK_CLOSE_CURLY_CURLY (txt "}}")]],
   []).

(** grammar/twig/literal.rs:2368 *)
Definition t_literal_2368 : ptest :=
  (txt "{{ ""now""|date('d/m/Y H:i', timezone=""Europe/Paris"") }}",
   Node ROOT [Node TWIG_VAR [Leaf TK_OPEN_CURLY_CURLY (txt "{{"); Node TWIG_EXPRESSION [Node TWIG_FILTER [Node TWIG_OPERAND [Node TWIG_LITERAL_STRING [Leaf TK_WHITESPACE (txt " "); Leaf TK_DOUBLE_QUOTES (txt """"); Node TWIG_LITERAL_STRING_INNER [Leaf TK_WORD (txt "now")]; Leaf TK_DOUBLE_QUOTES (txt """")]]; Leaf TK_SINGLE_PIPE (txt "|"); Node TWIG_OPERAND [Node TWIG_LITERAL_NAME [Leaf TK_WORD (txt "date")]; Node TWIG_ARGUMENTS [Leaf TK_OPEN_PARENTHESIS (txt "("); Node TWIG_EXPRESSION [Node TWIG_LITERAL_STRING [Leaf TK_SINGLE_QUOTES (txt "'"); Node TWIG_LITERAL_STRING_INNER [Leaf TK_WORD (txt "d"); Leaf TK_FORWARD_SLASH (txt "/"); Leaf TK_WORD (txt "m"); Leaf TK_FORWARD_SLASH (txt "/"); Leaf TK_WORD (txt "Y"); Leaf TK_WHITESPACE (txt " "); Leaf TK_WORD (txt "H"); Leaf TK_COLON (txt ":"); Leaf TK_WORD (txt "i")]; Leaf TK_SINGLE_QUOTES (txt "'")]]; Leaf TK_COMMA (txt ","); Node TWIG_NAMED_ARGUMENT [Leaf TK_WHITESPACE (txt " "); Leaf TK_WORD (txt "timezone"); Leaf TK_EQUAL (txt "="); Node TWIG_EXPRESSION [Node TWIG_LITERAL_STRING [Leaf TK_DOUBLE_QUOTES (txt """"); Node TWIG_LITERAL_STRING_INNER [Leaf TK_WORD (txt "Europe"); Leaf TK_FORWARD_SLASH (txt "/"); Leaf TK_WORD (txt "Paris")]; Leaf TK_DOUBLE_QUOTES (txt """")]]]; Leaf TK_CLOSE_PARENTHESIS (txt ")")]]]]; Leaf TK_WHITESPACE (txt " "); Leaf TK_CLOSE_CURLY_CURLY (txt "}}")]],
   []).

(** grammar/twig/literal.rs:2424 *)
Definition t_literal_2424 : ptest :=
  (txt "{{ users|length > 0 }}",
   Node ROOT [Node TWIG_VAR [Leaf TK_OPEN_CURLY_CURLY (txt "{{"); Node TWIG_EXPRESSION [Node TWIG_BINARY_EXPRESSION [Node TWIG_EXPRESSION [Node TWIG_FILTER [Node TWIG_OPERAND [Node TWIG_LITERAL_NAME [Leaf TK_WHITESPACE (txt " "); Leaf TK_WORD (txt "users")]]; Leaf TK_SINGLE_PIPE (txt "|"); Node TWIG_OPERAND [Node TWIG_LITERAL_NAME [Leaf TK_WORD (txt "length")]]]]; Leaf TK_WHITESPACE (txt " "); Leaf TK_GREATER_THAN (txt ">"); Node TWIG_EXPRESSION [Node TWIG_LITERAL_NUMBER [Leaf TK_WHITESPACE (txt " "); Leaf TK_NUMBER (txt "0")]]]]; Leaf TK_WHITESPACE (txt " "); Leaf TK_CLOSE_CURLY_CURLY (txt "}}")]],
   []).

(** grammar/twig/literal.rs:2455 *)
Definition t_literal_2455 : ptest :=
  (txt "{{ include('sections/articles/sidebar.html') }}",
   Node ROOT [Node TWIG_VAR [Leaf TK_OPEN_CURLY_CURLY (txt "{{"); Node TWIG_EXPRESSION [Node TWIG_FUNCTION_CALL [Node TWIG_OPERAND [Node TWIG_LITERAL_NAME [Leaf TK_WHITESPACE (txt " "); Leaf TK_WORD (txt "include")]]; Node TWIG_ARGUMENTS [Leaf TK_OPEN_PARENTHESIS (txt "("); Node TWIG_EXPRESSION [Node TWIG_LITERAL_STRING [Leaf TK_SINGLE_QUOTES (txt "'"); Node TWIG_LITERAL_STRING_INNER [Leaf TK_WORD (txt "sections"); Leaf TK_FORWARD_SLASH (txt "/"); Leaf TK_WORD (txt "articles"); Leaf TK_FORWARD_SLASH (txt "/"); Leaf TK_WORD (txt "sidebar"); Leaf TK_DOT (txt "."); Leaf TK_WORD (txt "html")]; Leaf TK_SINGLE_QUOTES (txt "'")]]; Leaf TK_CLOSE_PARENTHESIS (txt ")")]]]; Leaf TK_WHITESPACE (txt " "); Leaf TK_CLOSE_CURLY_CURLY (txt "}}")]],
   []).

Definition tests : list ptest :=
  [t_expression_346; t_expression_360; t_expression_377; t_expression_402; t_expression_435; t_expression_472; t_expression_505; t_expression_526; t_expression_551; t_expression_605; t_expression_634; t_expression_668; t_expression_698; t_expression_719; t_expression_752; t_expression_781; t_expression_810; t_expression_856; t_expression_893; t_expression_930; t_expression_969; t_expression_999; t_expression_1044; t_expression_1090; t_expression_1115; t_expression_1154; t_expression_1171; t_expression_1196; t_expression_1213; t_expression_1252; t_expression_1284; t_expression_1316; t_expression_1348; t_expression_1381; t_expression_1408; t_expression_1438; t_expression_1479; t_expression_1526; t_expression_1563; t_expression_1598; t_expression_1667; t_expression_1723; t_expression_1813; t_expression_1875; t_expression_2158; t_expression_2178; t_literal_497; t_literal_521; t_literal_545; t_literal_570; t_literal_592; t_literal_630; t_literal_659; t_literal_676; t_literal_693; t_literal_725; t_literal_757; t_literal_799; t_literal_816; t_literal_833; t_literal_850; t_literal_897; t_literal_944; t_literal_983; t_literal_1022; t_literal_1069; t_literal_1109; t_literal_1198; t_literal_1242; t_literal_1286; t_literal_1330; t_literal_1347; t_literal_1364; t_literal_1393; t_literal_1428; t_literal_1462; t_literal_1504; t_literal_1545; t_literal_1581; t_literal_1610; t_literal_1636; t_literal_1662; t_literal_1691; t_literal_1717; t_literal_1743; t_literal_1766; t_literal_1814; t_literal_1854; t_literal_1900; t_literal_1922; t_literal_1952; t_literal_1988; t_literal_2021; t_literal_2059; t_literal_2101; t_literal_2145; t_literal_2193; t_literal_2296; t_literal_2329; t_literal_2368; t_literal_2424; t_literal_2455].

(** Debug builds: the tests run with debug assertions. *)
Example conformance : failing true tests = [].
Proof. vm_compute. reflexivity. Qed.
