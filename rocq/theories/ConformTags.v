(** Conformance tests (tests, not proofs): the inputs and expected trees and messages of the
    repository's own parser tests ([check_parse] in grammar/twig/tags.rs, grammar/twig/shopware.rs, grammar/twig.rs), run on the model.
    Generated from the test modules. *)
From Coq Require Import List NArith String Bool.
Import ListNotations.
From Verif Require Import Text Kind Lexer ParserApi Machine Render.
Local Open Scope string_scope.
Local Open Scope list_scope.


(** grammar/twig/tags.rs:1478 *)
Definition t_tags_1478 : ptest :=
  (txt "{% asdf",
   Node ROOT [Node ERROR [Leaf TK_CURLY_PERCENT (txt "{%")]; Node HTML_TEXT [Leaf TK_WHITESPACE (txt " "); Leaf TK_WORD (txt "asdf")]],
   [txt "error at 3..7: expected twig tag but found word"]).

(** grammar/twig/tags.rs:1493 *)
Definition t_tags_1493 : ptest :=
  (txt "{% block block_name %} hello world {% endblock %}",
   Node ROOT [Node TWIG_BLOCK [Node TWIG_STARTING_BLOCK [Leaf TK_CURLY_PERCENT (txt "{%"); Leaf TK_WHITESPACE (txt " "); Leaf TK_BLOCK (txt "block"); Leaf TK_WHITESPACE (txt " "); Leaf TK_WORD (txt "block_name"); Leaf TK_WHITESPACE (txt " "); Leaf TK_PERCENT_CURLY (txt "%}")]; Node BODY [Node HTML_TEXT [Leaf TK_WHITESPACE (txt " "); Leaf TK_WORD (txt "hello"); Leaf TK_WHITESPACE (txt " "); Leaf TK_WORD (txt "world")]]; Node TWIG_ENDING_BLOCK [Leaf TK_WHITESPACE (txt " "); Leaf TK_CURLY_PERCENT (txt "{%"); Leaf TK_WHITESPACE (txt " "); Leaf TK_ENDBLOCK (txt "endblock"); Leaf TK_WHITESPACE (txt " "); Leaf TK_PERCENT_CURLY (txt "%}")]]],
   []).

(** grammar/twig/tags.rs:1524 *)
Definition t_tags_1524 : ptest :=
  (txt "{% block outer %}out{% block middle %}mid{% block inner %}in{% endblock %}mid{% endblock %}out{% endblock %}",
   Node ROOT [Node TWIG_BLOCK [Node TWIG_STARTING_BLOCK [Leaf TK_CURLY_PERCENT (txt "{%"); Leaf TK_WHITESPACE (txt " "); Leaf TK_BLOCK (txt "block"); Leaf TK_WHITESPACE (txt " "); Leaf TK_WORD (txt "outer"); Leaf TK_WHITESPACE (txt " "); Leaf TK_PERCENT_CURLY (txt "%}")]; Node BODY [Node HTML_TEXT [Leaf TK_WORD (txt "out")]; Node TWIG_BLOCK [Node TWIG_STARTING_BLOCK [Leaf TK_CURLY_PERCENT (txt "{%"); Leaf TK_WHITESPACE (txt " "); Leaf TK_BLOCK (txt "block"); Leaf TK_WHITESPACE (txt " "); Leaf TK_WORD (txt "middle"); Leaf TK_WHITESPACE (txt " "); Leaf TK_PERCENT_CURLY (txt "%}")]; Node BODY [Node HTML_TEXT [Leaf TK_WORD (txt "mid")]; Node TWIG_BLOCK [Node TWIG_STARTING_BLOCK [Leaf TK_CURLY_PERCENT (txt "{%"); Leaf TK_WHITESPACE (txt " "); Leaf TK_BLOCK (txt "block"); Leaf TK_WHITESPACE (txt " "); Leaf TK_WORD (txt "inner"); Leaf TK_WHITESPACE (txt " "); Leaf TK_PERCENT_CURLY (txt "%}")]; Node BODY [Node HTML_TEXT [Leaf TK_IN (txt "in")]]; Node TWIG_ENDING_BLOCK [Leaf TK_CURLY_PERCENT (txt "{%"); Leaf TK_WHITESPACE (txt " "); Leaf TK_ENDBLOCK (txt "endblock"); Leaf TK_WHITESPACE (txt " "); Leaf TK_PERCENT_CURLY (txt "%}")]]; Node HTML_TEXT [Leaf TK_WORD (txt "mid")]]; Node TWIG_ENDING_BLOCK [Leaf TK_CURLY_PERCENT (txt "{%"); Leaf TK_WHITESPACE (txt " "); Leaf TK_ENDBLOCK (txt "endblock"); Leaf TK_WHITESPACE (txt " "); Leaf TK_PERCENT_CURLY (txt "%}")]]; Node HTML_TEXT [Leaf TK_WORD (txt "out")]]; Node TWIG_ENDING_BLOCK [Leaf TK_CURLY_PERCENT (txt "{%"); Leaf TK_WHITESPACE (txt " "); Leaf TK_ENDBLOCK (txt "endblock"); Leaf TK_WHITESPACE (txt " "); Leaf TK_PERCENT_CURLY (txt "%}")]]],
   []).

(** grammar/twig/tags.rs:1601 *)
Definition t_tags_1601 : ptest :=
  (txt "{% if isTrue %} true {% endif %}",
   Node ROOT [Node TWIG_IF [Node TWIG_IF_BLOCK [Leaf TK_CURLY_PERCENT (txt "{%"); Leaf TK_WHITESPACE (txt " "); Leaf TK_IF (txt "if"); Node TWIG_EXPRESSION [Node TWIG_LITERAL_NAME [Leaf TK_WHITESPACE (txt " "); Leaf TK_WORD (txt "isTrue")]]; Leaf TK_WHITESPACE (txt " "); Leaf TK_PERCENT_CURLY (txt "%}")]; Node BODY [Node HTML_TEXT [Leaf TK_WHITESPACE (txt " "); Leaf TK_TRUE (txt "true")]]; Node TWIG_ENDIF_BLOCK [Leaf TK_WHITESPACE (txt " "); Leaf TK_CURLY_PERCENT (txt "{%"); Leaf TK_WHITESPACE (txt " "); Leaf TK_ENDIF (txt "endif"); Leaf TK_WHITESPACE (txt " "); Leaf TK_PERCENT_CURLY (txt "%}")]]],
   []).

(** grammar/twig/tags.rs:1632 *)
Definition t_tags_1632 : ptest :=
  (txt "{% if temperature > 18 and temperature < 27 %} true {% endif %}",
   Node ROOT [Node TWIG_IF [Node TWIG_IF_BLOCK [Leaf TK_CURLY_PERCENT (txt "{%"); Leaf TK_WHITESPACE (txt " "); Leaf TK_IF (txt "if"); Node TWIG_EXPRESSION [Node TWIG_BINARY_EXPRESSION [Node TWIG_BINARY_EXPRESSION [Node TWIG_EXPRESSION [Node TWIG_LITERAL_NAME [Leaf TK_WHITESPACE (txt " "); Leaf TK_WORD (txt "temperature")]]; Leaf TK_WHITESPACE (txt " "); Leaf TK_GREATER_THAN (txt ">"); Node TWIG_EXPRESSION [Node TWIG_LITERAL_NUMBER [Leaf TK_WHITESPACE (txt " "); Leaf TK_NUMBER (txt "18")]]]; Leaf TK_WHITESPACE (txt " "); Leaf TK_AND (txt "and"); Node TWIG_EXPRESSION [Node TWIG_BINARY_EXPRESSION [Node TWIG_EXPRESSION [Node TWIG_LITERAL_NAME [Leaf TK_WHITESPACE (txt " "); Leaf TK_WORD (txt "temperature")]]; Leaf TK_WHITESPACE (txt " "); Leaf TK_LESS_THAN (txt "<"); Node TWIG_EXPRESSION [Node TWIG_LITERAL_NUMBER [Leaf TK_WHITESPACE (txt " "); Leaf TK_NUMBER (txt "27")]]]]]]; Leaf TK_WHITESPACE (txt " "); Leaf TK_PERCENT_CURLY (txt "%}")]; Node BODY [Node HTML_TEXT [Leaf TK_WHITESPACE (txt " "); Leaf TK_TRUE (txt "true")]]; Node TWIG_ENDIF_BLOCK [Leaf TK_WHITESPACE (txt " "); Leaf TK_CURLY_PERCENT (txt "{%"); Leaf TK_WHITESPACE (txt " "); Leaf TK_ENDIF (txt "endif"); Leaf TK_WHITESPACE (txt " "); Leaf TK_PERCENT_CURLY (txt "%}")]]],
   []).

(** grammar/twig/tags.rs:1686 *)
Definition t_tags_1686 : ptest :=
  (txt "{% if isTrue %} true {% else %} false {% endif %}",
   Node ROOT [Node TWIG_IF [Node TWIG_IF_BLOCK [Leaf TK_CURLY_PERCENT (txt "{%"); Leaf TK_WHITESPACE (txt " "); Leaf TK_IF (txt "if"); Node TWIG_EXPRESSION [Node TWIG_LITERAL_NAME [Leaf TK_WHITESPACE (txt " "); Leaf TK_WORD (txt "isTrue")]]; Leaf TK_WHITESPACE (txt " "); Leaf TK_PERCENT_CURLY (txt "%}")]; Node BODY [Node HTML_TEXT [Leaf TK_WHITESPACE (txt " "); Leaf TK_TRUE (txt "true")]]; Node TWIG_ELSE_BLOCK [Leaf TK_WHITESPACE (txt " "); Leaf TK_CURLY_PERCENT (txt "{%"); Leaf TK_WHITESPACE (txt " "); Leaf TK_ELSE (txt "else"); Leaf TK_WHITESPACE (txt " "); Leaf TK_PERCENT_CURLY (txt "%}")]; Node BODY [Node HTML_TEXT [Leaf TK_WHITESPACE (txt " "); Leaf TK_FALSE (txt "false")]]; Node TWIG_ENDIF_BLOCK [Leaf TK_WHITESPACE (txt " "); Leaf TK_CURLY_PERCENT (txt "{%"); Leaf TK_WHITESPACE (txt " "); Leaf TK_ENDIF (txt "endif"); Leaf TK_WHITESPACE (txt " "); Leaf TK_PERCENT_CURLY (txt "%}")]]],
   []).

(** grammar/twig/tags.rs:1728 *)
Definition t_tags_1728 : ptest :=
  (txt "{% if isA %} A {% elseif isB %} B {% endif %}",
   Node ROOT [Node TWIG_IF [Node TWIG_IF_BLOCK [Leaf TK_CURLY_PERCENT (txt "{%"); Leaf TK_WHITESPACE (txt " "); Leaf TK_IF (txt "if"); Node TWIG_EXPRESSION [Node TWIG_LITERAL_NAME [Leaf TK_WHITESPACE (txt " "); Leaf TK_WORD (txt "isA")]]; Leaf TK_WHITESPACE (txt " "); Leaf TK_PERCENT_CURLY (txt "%}")]; Node BODY [Node HTML_TEXT [Leaf TK_WHITESPACE (txt " "); Leaf TK_WORD (txt "A")]]; Node TWIG_ELSE_IF_BLOCK [Leaf TK_WHITESPACE (txt " "); Leaf TK_CURLY_PERCENT (txt "{%"); Leaf TK_WHITESPACE (txt " "); Leaf TK_ELSE_IF (txt "elseif"); Node TWIG_EXPRESSION [Node TWIG_LITERAL_NAME [Leaf TK_WHITESPACE (txt " "); Leaf TK_WORD (txt "isB")]]; Leaf TK_WHITESPACE (txt " "); Leaf TK_PERCENT_CURLY (txt "%}")]; Node BODY [Node HTML_TEXT [Leaf TK_WHITESPACE (txt " "); Leaf TK_WORD (txt "B")]]; Node TWIG_ENDIF_BLOCK [Leaf TK_WHITESPACE (txt " "); Leaf TK_CURLY_PERCENT (txt "{%"); Leaf TK_WHITESPACE (txt " "); Leaf TK_ENDIF (txt "endif"); Leaf TK_WHITESPACE (txt " "); Leaf TK_PERCENT_CURLY (txt "%}")]]],
   []).

(** grammar/twig/tags.rs:1774 *)
Definition t_tags_1774 : ptest :=
  (txt "{% if isA %} A {% elseif isB %} B {% else %} other {% endif %}",
   Node ROOT [Node TWIG_IF [Node TWIG_IF_BLOCK [Leaf TK_CURLY_PERCENT (txt "{%"); Leaf TK_WHITESPACE (txt " "); Leaf TK_IF (txt "if"); Node TWIG_EXPRESSION [Node TWIG_LITERAL_NAME [Leaf TK_WHITESPACE (txt " "); Leaf TK_WORD (txt "isA")]]; Leaf TK_WHITESPACE (txt " "); Leaf TK_PERCENT_CURLY (txt "%}")]; Node BODY [Node HTML_TEXT [Leaf TK_WHITESPACE (txt " "); Leaf TK_WORD (txt "A")]]; Node TWIG_ELSE_IF_BLOCK [Leaf TK_WHITESPACE (txt " "); Leaf TK_CURLY_PERCENT (txt "{%"); Leaf TK_WHITESPACE (txt " "); Leaf TK_ELSE_IF (txt "elseif"); Node TWIG_EXPRESSION [Node TWIG_LITERAL_NAME [Leaf TK_WHITESPACE (txt " "); Leaf TK_WORD (txt "isB")]]; Leaf TK_WHITESPACE (txt " "); Leaf TK_PERCENT_CURLY (txt "%}")]; Node BODY [Node HTML_TEXT [Leaf TK_WHITESPACE (txt " "); Leaf TK_WORD (txt "B")]]; Node TWIG_ELSE_BLOCK [Leaf TK_WHITESPACE (txt " "); Leaf TK_CURLY_PERCENT (txt "{%"); Leaf TK_WHITESPACE (txt " "); Leaf TK_ELSE (txt "else"); Leaf TK_WHITESPACE (txt " "); Leaf TK_PERCENT_CURLY (txt "%}")]; Node BODY [Node HTML_TEXT [Leaf TK_WHITESPACE (txt " "); Leaf TK_WORD (txt "other")]]; Node TWIG_ENDIF_BLOCK [Leaf TK_WHITESPACE (txt " "); Leaf TK_CURLY_PERCENT (txt "{%"); Leaf TK_WHITESPACE (txt " "); Leaf TK_ENDIF (txt "endif"); Leaf TK_WHITESPACE (txt " "); Leaf TK_PERCENT_CURLY (txt "%}")]]],
   []).

(** grammar/twig/tags.rs:1831 *)
Definition t_tags_1831 : ptest :=
  (txt "{% if isA %} A {% elseif isB %} B {% elseif isC %} C {% else %} other {% endif %}",
   Node ROOT [Node TWIG_IF [Node TWIG_IF_BLOCK [Leaf TK_CURLY_PERCENT (txt "{%"); Leaf TK_WHITESPACE (txt " "); Leaf TK_IF (txt "if"); Node TWIG_EXPRESSION [Node TWIG_LITERAL_NAME [Leaf TK_WHITESPACE (txt " "); Leaf TK_WORD (txt "isA")]]; Leaf TK_WHITESPACE (txt " "); Leaf TK_PERCENT_CURLY (txt "%}")]; Node BODY [Node HTML_TEXT [Leaf TK_WHITESPACE (txt " "); Leaf TK_WORD (txt "A")]]; Node TWIG_ELSE_IF_BLOCK [Leaf TK_WHITESPACE (txt " "); Leaf TK_CURLY_PERCENT (txt "{%"); Leaf TK_WHITESPACE (txt " "); Leaf TK_ELSE_IF (txt "elseif"); Node TWIG_EXPRESSION [Node TWIG_LITERAL_NAME [Leaf TK_WHITESPACE (txt " "); Leaf TK_WORD (txt "isB")]]; Leaf TK_WHITESPACE (txt " "); Leaf TK_PERCENT_CURLY (txt "%}")]; Node BODY [Node HTML_TEXT [Leaf TK_WHITESPACE (txt " "); Leaf TK_WORD (txt "B")]]; Node TWIG_ELSE_IF_BLOCK [Leaf TK_WHITESPACE (txt " "); Leaf TK_CURLY_PERCENT (txt "{%"); Leaf TK_WHITESPACE (txt " "); Leaf TK_ELSE_IF (txt "elseif"); Node TWIG_EXPRESSION [Node TWIG_LITERAL_NAME [Leaf TK_WHITESPACE (txt " "); Leaf TK_WORD (txt "isC")]]; Leaf TK_WHITESPACE (txt " "); Leaf TK_PERCENT_CURLY (txt "%}")]; Node BODY [Node HTML_TEXT [Leaf TK_WHITESPACE (txt " "); Leaf TK_WORD (txt "C")]]; Node TWIG_ELSE_BLOCK [Leaf TK_WHITESPACE (txt " "); Leaf TK_CURLY_PERCENT (txt "{%"); Leaf TK_WHITESPACE (txt " "); Leaf TK_ELSE (txt "else"); Leaf TK_WHITESPACE (txt " "); Leaf TK_PERCENT_CURLY (txt "%}")]; Node BODY [Node HTML_TEXT [Leaf TK_WHITESPACE (txt " "); Leaf TK_WORD (txt "other")]]; Node TWIG_ENDIF_BLOCK [Leaf TK_WHITESPACE (txt " "); Leaf TK_CURLY_PERCENT (txt "{%"); Leaf TK_WHITESPACE (txt " "); Leaf TK_ENDIF (txt "endif"); Leaf TK_WHITESPACE (txt " "); Leaf TK_PERCENT_CURLY (txt "%}")]]],
   []).

(** grammar/twig/tags.rs:1903 *)
Definition t_tags_1903 : ptest :=
  (txt "{% block my_block %} \t unknown token {% endblock %}",
   Node ROOT [Node TWIG_BLOCK [Node TWIG_STARTING_BLOCK [Leaf TK_CURLY_PERCENT (txt "{%"); Leaf TK_WHITESPACE (txt " "); Leaf TK_BLOCK (txt "block"); Leaf TK_WHITESPACE (txt " "); Leaf TK_WORD (txt "my_block"); Leaf TK_WHITESPACE (txt " "); Leaf TK_PERCENT_CURLY (txt "%}")]; Node BODY [Node HTML_TEXT [Leaf TK_WHITESPACE (txt " "); Leaf TK_BACKWARD_SLASH (txt "\"); Leaf TK_WORD (txt "t"); Leaf TK_WHITESPACE (txt " "); Leaf TK_WORD (txt "unknown"); Leaf TK_WHITESPACE (txt " "); Leaf TK_WORD (txt "token")]]; Node TWIG_ENDING_BLOCK [Leaf TK_WHITESPACE (txt " "); Leaf TK_CURLY_PERCENT (txt "{%"); Leaf TK_WHITESPACE (txt " "); Leaf TK_ENDBLOCK (txt "endblock"); Leaf TK_WHITESPACE (txt " "); Leaf TK_PERCENT_CURLY (txt "%}")]]],
   []).

(** grammar/twig/tags.rs:1937 *)
Definition t_tags_1937 : ptest :=
  (txt "{% block my_block %}",
   Node ROOT [Node TWIG_BLOCK [Node TWIG_STARTING_BLOCK [Leaf TK_CURLY_PERCENT (txt "{%"); Leaf TK_WHITESPACE (txt " "); Leaf TK_BLOCK (txt "block"); Leaf TK_WHITESPACE (txt " "); Leaf TK_WORD (txt "my_block"); Leaf TK_WHITESPACE (txt " "); Leaf TK_PERCENT_CURLY (txt "%}")]; Node BODY []; Node TWIG_ENDING_BLOCK []]],
   [txt "error at 18..20: expected {% or {%- or {%~ but reached end of file"; txt "error at 18..20: expected endblock but reached end of file"; txt "error at 18..20: expected %} or -%} or ~%} but reached end of file"]).

(** grammar/twig/tags.rs:1960 *)
Definition t_tags_1960 : ptest :=
  (txt "{% block sidebar %}
    {% block inner_sidebar %}
        ...
    {% endblock inner_sidebar %}
{% endblock sidebar %}",
   Node ROOT [Node TWIG_BLOCK [Node TWIG_STARTING_BLOCK [Leaf TK_CURLY_PERCENT (txt "{%"); Leaf TK_WHITESPACE (txt " "); Leaf TK_BLOCK (txt "block"); Leaf TK_WHITESPACE (txt " "); Leaf TK_WORD (txt "sidebar"); Leaf TK_WHITESPACE (txt " "); Leaf TK_PERCENT_CURLY (txt "%}")]; Node BODY [Node TWIG_BLOCK [Node TWIG_STARTING_BLOCK [Leaf TK_LINE_BREAK (txt "
"); Leaf TK_WHITESPACE (txt "    "); Leaf TK_CURLY_PERCENT (txt "{%"); Leaf TK_WHITESPACE (txt " "); Leaf TK_BLOCK (txt "block"); Leaf TK_WHITESPACE (txt " "); Leaf TK_WORD (txt "inner_sidebar"); Leaf TK_WHITESPACE (txt " "); Leaf TK_PERCENT_CURLY (txt "%}")]; Node BODY [Node HTML_TEXT [Leaf TK_LINE_BREAK (txt "
"); Leaf TK_WHITESPACE (txt "        "); Leaf TK_TRIPLE_DOT (txt "...")]]; Node TWIG_ENDING_BLOCK [Leaf TK_LINE_BREAK (txt "
"); Leaf TK_WHITESPACE (txt "    "); Leaf TK_CURLY_PERCENT (txt "{%"); Leaf TK_WHITESPACE (txt " "); Leaf TK_ENDBLOCK (txt "endblock"); Leaf TK_WHITESPACE (txt " "); Leaf TK_WORD (txt "inner_sidebar"); Leaf TK_WHITESPACE (txt " "); Leaf TK_PERCENT_CURLY (txt "%}")]]]; Node TWIG_ENDING_BLOCK [Leaf TK_LINE_BREAK (txt "
"); Leaf TK_CURLY_PERCENT (txt "{%"); Leaf TK_WHITESPACE (txt " "); Leaf TK_ENDBLOCK (txt "endblock"); Leaf TK_WHITESPACE (txt " "); Leaf TK_WORD (txt "sidebar"); Leaf TK_WHITESPACE (txt " "); Leaf TK_PERCENT_CURLY (txt "%}")]]],
   []).

(** grammar/twig/tags.rs:2018 *)
Definition t_tags_2018 : ptest :=
  (txt "{% block sidebar %}
    {% block inner_sidebar %}
        ...
    {% endblock sidebar %}
{% endblock sidebar %}",
   Node ROOT [Node TWIG_BLOCK [Node TWIG_STARTING_BLOCK [Leaf TK_CURLY_PERCENT (txt "{%"); Leaf TK_WHITESPACE (txt " "); Leaf TK_BLOCK (txt "block"); Leaf TK_WHITESPACE (txt " "); Leaf TK_WORD (txt "sidebar"); Leaf TK_WHITESPACE (txt " "); Leaf TK_PERCENT_CURLY (txt "%}")]; Node BODY [Node TWIG_BLOCK [Node TWIG_STARTING_BLOCK [Leaf TK_LINE_BREAK (txt "
"); Leaf TK_WHITESPACE (txt "    "); Leaf TK_CURLY_PERCENT (txt "{%"); Leaf TK_WHITESPACE (txt " "); Leaf TK_BLOCK (txt "block"); Leaf TK_WHITESPACE (txt " "); Leaf TK_WORD (txt "inner_sidebar"); Leaf TK_WHITESPACE (txt " "); Leaf TK_PERCENT_CURLY (txt "%}")]; Node BODY [Node HTML_TEXT [Leaf TK_LINE_BREAK (txt "
"); Leaf TK_WHITESPACE (txt "        "); Leaf TK_TRIPLE_DOT (txt "...")]]; Node TWIG_ENDING_BLOCK [Leaf TK_LINE_BREAK (txt "
"); Leaf TK_WHITESPACE (txt "    "); Leaf TK_CURLY_PERCENT (txt "{%"); Leaf TK_WHITESPACE (txt " "); Leaf TK_ENDBLOCK (txt "endblock"); Leaf TK_WHITESPACE (txt " "); Leaf TK_WORD (txt "sidebar"); Leaf TK_WHITESPACE (txt " "); Leaf TK_PERCENT_CURLY (txt "%}")]]]; Node TWIG_ENDING_BLOCK [Leaf TK_LINE_BREAK (txt "
"); Leaf TK_CURLY_PERCENT (txt "{%"); Leaf TK_WHITESPACE (txt " "); Leaf TK_ENDBLOCK (txt "endblock"); Leaf TK_WHITESPACE (txt " "); Leaf TK_WORD (txt "sidebar"); Leaf TK_WHITESPACE (txt " "); Leaf TK_PERCENT_CURLY (txt "%}")]]],
   [txt "error at 78..85: expected nothing or same twig block name as opening (inner_sidebar) but found word"]).

(** grammar/twig/tags.rs:2077 *)
Definition t_tags_2077 : ptest :=
  (txt "{% block title page_title|title %}",
   Node ROOT [Node TWIG_BLOCK [Node TWIG_STARTING_BLOCK [Leaf TK_CURLY_PERCENT (txt "{%"); Leaf TK_WHITESPACE (txt " "); Leaf TK_BLOCK (txt "block"); Leaf TK_WHITESPACE (txt " "); Leaf TK_WORD (txt "title"); Node TWIG_EXPRESSION [Node TWIG_FILTER [Node TWIG_OPERAND [Node TWIG_LITERAL_NAME [Leaf TK_WHITESPACE (txt " "); Leaf TK_WORD (txt "page_title")]]; Leaf TK_SINGLE_PIPE (txt "|"); Node TWIG_OPERAND [Node TWIG_LITERAL_NAME [Leaf TK_WORD (txt "title")]]]]; Leaf TK_WHITESPACE (txt " "); Leaf TK_PERCENT_CURLY (txt "%}")]]],
   []).

(** grammar/twig/tags.rs:2105 *)
Definition t_tags_2105 : ptest :=
  (txt "{% set foo = 'bar' %}",
   Node ROOT [Node TWIG_SET [Node TWIG_SET_BLOCK [Leaf TK_CURLY_PERCENT (txt "{%"); Leaf TK_WHITESPACE (txt " "); Leaf TK_SET (txt "set"); Node TWIG_ASSIGNMENT [Node TWIG_LITERAL_NAME [Leaf TK_WHITESPACE (txt " "); Leaf TK_WORD (txt "foo")]; Leaf TK_WHITESPACE (txt " "); Leaf TK_EQUAL (txt "="); Node TWIG_EXPRESSION [Node TWIG_LITERAL_STRING [Leaf TK_WHITESPACE (txt " "); Leaf TK_SINGLE_QUOTES (txt "'"); Node TWIG_LITERAL_STRING_INNER [Leaf TK_WORD (txt "bar")]; Leaf TK_SINGLE_QUOTES (txt "'")]]]; Leaf TK_WHITESPACE (txt " "); Leaf TK_PERCENT_CURLY (txt "%}")]]],
   []).

(** grammar/twig/tags.rs:2134 *)
Definition t_tags_2134 : ptest :=
  (txt "{% set foo %}
    hello world
{% endset %}",
   Node ROOT [Node TWIG_SET [Node TWIG_SET_BLOCK [Leaf TK_CURLY_PERCENT (txt "{%"); Leaf TK_WHITESPACE (txt " "); Leaf TK_SET (txt "set"); Node TWIG_ASSIGNMENT [Node TWIG_LITERAL_NAME [Leaf TK_WHITESPACE (txt " "); Leaf TK_WORD (txt "foo")]]; Leaf TK_WHITESPACE (txt " "); Leaf TK_PERCENT_CURLY (txt "%}")]; Node BODY [Node HTML_TEXT [Leaf TK_LINE_BREAK (txt "
"); Leaf TK_WHITESPACE (txt "    "); Leaf TK_WORD (txt "hello"); Leaf TK_WHITESPACE (txt " "); Leaf TK_WORD (txt "world")]]; Node TWIG_ENDSET_BLOCK [Leaf TK_LINE_BREAK (txt "
"); Leaf TK_CURLY_PERCENT (txt "{%"); Leaf TK_WHITESPACE (txt " "); Leaf TK_ENDSET (txt "endset"); Leaf TK_WHITESPACE (txt " "); Leaf TK_PERCENT_CURLY (txt "%}")]]],
   []).

(** grammar/twig/tags.rs:2170 *)
Definition t_tags_2170 : ptest :=
  (txt "{% set foo, bar, baz = 'foo', 'bar', 'baz' %}",
   Node ROOT [Node TWIG_SET [Node TWIG_SET_BLOCK [Leaf TK_CURLY_PERCENT (txt "{%"); Leaf TK_WHITESPACE (txt " "); Leaf TK_SET (txt "set"); Node TWIG_ASSIGNMENT [Node TWIG_LITERAL_NAME [Leaf TK_WHITESPACE (txt " "); Leaf TK_WORD (txt "foo")]; Leaf TK_COMMA (txt ","); Node TWIG_LITERAL_NAME [Leaf TK_WHITESPACE (txt " "); Leaf TK_WORD (txt "bar")]; Leaf TK_COMMA (txt ","); Node TWIG_LITERAL_NAME [Leaf TK_WHITESPACE (txt " "); Leaf TK_WORD (txt "baz")]; Leaf TK_WHITESPACE (txt " "); Leaf TK_EQUAL (txt "="); Node TWIG_EXPRESSION [Node TWIG_LITERAL_STRING [Leaf TK_WHITESPACE (txt " "); Leaf TK_SINGLE_QUOTES (txt "'"); Node TWIG_LITERAL_STRING_INNER [Leaf TK_WORD (txt "foo")]; Leaf TK_SINGLE_QUOTES (txt "'")]]; Leaf TK_COMMA (txt ","); Node TWIG_EXPRESSION [Node TWIG_LITERAL_STRING [Leaf TK_WHITESPACE (txt " "); Leaf TK_SINGLE_QUOTES (txt "'"); Node TWIG_LITERAL_STRING_INNER [Leaf TK_WORD (txt "bar")]; Leaf TK_SINGLE_QUOTES (txt "'")]]; Leaf TK_COMMA (txt ","); Node TWIG_EXPRESSION [Node TWIG_LITERAL_STRING [Leaf TK_WHITESPACE (txt " "); Leaf TK_SINGLE_QUOTES (txt "'"); Node TWIG_LITERAL_STRING_INNER [Leaf TK_WORD (txt "baz")]; Leaf TK_SINGLE_QUOTES (txt "'")]]]; Leaf TK_WHITESPACE (txt " "); Leaf TK_PERCENT_CURLY (txt "%}")]]],
   []).

(** grammar/twig/tags.rs:2223 *)
Definition t_tags_2223 : ptest :=
  (txt "{% set foo, bar, baz = 'foo', 'bar' %}",
   Node ROOT [Node TWIG_SET [Node TWIG_SET_BLOCK [Leaf TK_CURLY_PERCENT (txt "{%"); Leaf TK_WHITESPACE (txt " "); Leaf TK_SET (txt "set"); Node TWIG_ASSIGNMENT [Node TWIG_LITERAL_NAME [Leaf TK_WHITESPACE (txt " "); Leaf TK_WORD (txt "foo")]; Leaf TK_COMMA (txt ","); Node TWIG_LITERAL_NAME [Leaf TK_WHITESPACE (txt " "); Leaf TK_WORD (txt "bar")]; Leaf TK_COMMA (txt ","); Node TWIG_LITERAL_NAME [Leaf TK_WHITESPACE (txt " "); Leaf TK_WORD (txt "baz")]; Leaf TK_WHITESPACE (txt " "); Leaf TK_EQUAL (txt "="); Node TWIG_EXPRESSION [Node TWIG_LITERAL_STRING [Leaf TK_WHITESPACE (txt " "); Leaf TK_SINGLE_QUOTES (txt "'"); Node TWIG_LITERAL_STRING_INNER [Leaf TK_WORD (txt "foo")]; Leaf TK_SINGLE_QUOTES (txt "'")]]; Leaf TK_COMMA (txt ","); Node TWIG_EXPRESSION [Node TWIG_LITERAL_STRING [Leaf TK_WHITESPACE (txt " "); Leaf TK_SINGLE_QUOTES (txt "'"); Node TWIG_LITERAL_STRING_INNER [Leaf TK_WORD (txt "bar")]; Leaf TK_SINGLE_QUOTES (txt "'")]]]; Leaf TK_WHITESPACE (txt " "); Leaf TK_PERCENT_CURLY (txt "%}")]]],
   [txt "error at 36..38: expected a total of 3 twig expressions (same amount as declarations) instead of 2 but found %}"]).

(** grammar/twig/tags.rs:2269 *)
Definition t_tags_2269 : ptest :=
  (txt "{% set foo, bar, baz %}
    hello world
{% endset %}",
   Node ROOT [Node TWIG_SET [Node TWIG_SET_BLOCK [Leaf TK_CURLY_PERCENT (txt "{%"); Leaf TK_WHITESPACE (txt " "); Leaf TK_SET (txt "set"); Node TWIG_ASSIGNMENT [Node TWIG_LITERAL_NAME [Leaf TK_WHITESPACE (txt " "); Leaf TK_WORD (txt "foo")]; Leaf TK_COMMA (txt ","); Node TWIG_LITERAL_NAME [Leaf TK_WHITESPACE (txt " "); Leaf TK_WORD (txt "bar")]; Leaf TK_COMMA (txt ","); Node TWIG_LITERAL_NAME [Leaf TK_WHITESPACE (txt " "); Leaf TK_WORD (txt "baz")]]; Leaf TK_WHITESPACE (txt " "); Leaf TK_PERCENT_CURLY (txt "%}")]; Node BODY [Node HTML_TEXT [Leaf TK_LINE_BREAK (txt "
"); Leaf TK_WHITESPACE (txt "    "); Leaf TK_WORD (txt "hello"); Leaf TK_WHITESPACE (txt " "); Leaf TK_WORD (txt "world")]]; Node TWIG_ENDSET_BLOCK [Leaf TK_LINE_BREAK (txt "
"); Leaf TK_CURLY_PERCENT (txt "{%"); Leaf TK_WHITESPACE (txt " "); Leaf TK_ENDSET (txt "endset"); Leaf TK_WHITESPACE (txt " "); Leaf TK_PERCENT_CURLY (txt "%}")]]],
   [txt "error at 21..23: expected = followed by 3 twig expressions but found %}"]).

(** grammar/twig/tags.rs:2314 *)
Definition t_tags_2314 : ptest :=
  (txt "{% set = 'foo' %}",
   Node ROOT [Node TWIG_SET [Node TWIG_SET_BLOCK [Leaf TK_CURLY_PERCENT (txt "{%"); Leaf TK_WHITESPACE (txt " "); Leaf TK_SET (txt "set"); Node TWIG_ASSIGNMENT [Leaf TK_WHITESPACE (txt " "); Leaf TK_EQUAL (txt "="); Node TWIG_EXPRESSION [Node TWIG_LITERAL_STRING [Leaf TK_WHITESPACE (txt " "); Leaf TK_SINGLE_QUOTES (txt "'"); Node TWIG_LITERAL_STRING_INNER [Leaf TK_WORD (txt "foo")]; Leaf TK_SINGLE_QUOTES (txt "'")]]]; Leaf TK_WHITESPACE (txt " "); Leaf TK_PERCENT_CURLY (txt "%}")]]],
   [txt "error at 7..8: expected twig variable name but found ="; txt "error at 15..17: expected a total of 0 twig expressions (same amount as declarations) instead of 1 but found %}"]).

(** grammar/twig/tags.rs:2342 *)
Definition t_tags_2342 : ptest :=
  (txt "{% set foo = %}",
   Node ROOT [Node TWIG_SET [Node TWIG_SET_BLOCK [Leaf TK_CURLY_PERCENT (txt "{%"); Leaf TK_WHITESPACE (txt " "); Leaf TK_SET (txt "set"); Node TWIG_ASSIGNMENT [Node TWIG_LITERAL_NAME [Leaf TK_WHITESPACE (txt " "); Leaf TK_WORD (txt "foo")]; Leaf TK_WHITESPACE (txt " "); Leaf TK_EQUAL (txt "=")]; Leaf TK_WHITESPACE (txt " "); Leaf TK_PERCENT_CURLY (txt "%}")]]],
   [txt "error at 13..15: expected a total of 1 twig expressions (same amount as declarations) instead of 0 but found %}"]).

(** grammar/twig/tags.rs:2365 *)
Definition t_tags_2365 : ptest :=
  (txt "{% set foo, bar, baz %}",
   Node ROOT [Node TWIG_SET [Node TWIG_SET_BLOCK [Leaf TK_CURLY_PERCENT (txt "{%"); Leaf TK_WHITESPACE (txt " "); Leaf TK_SET (txt "set"); Node TWIG_ASSIGNMENT [Node TWIG_LITERAL_NAME [Leaf TK_WHITESPACE (txt " "); Leaf TK_WORD (txt "foo")]; Leaf TK_COMMA (txt ","); Node TWIG_LITERAL_NAME [Leaf TK_WHITESPACE (txt " "); Leaf TK_WORD (txt "bar")]; Leaf TK_COMMA (txt ","); Node TWIG_LITERAL_NAME [Leaf TK_WHITESPACE (txt " "); Leaf TK_WORD (txt "baz")]]; Leaf TK_WHITESPACE (txt " "); Leaf TK_PERCENT_CURLY (txt "%}")]; Node BODY []; Node TWIG_ENDSET_BLOCK []]],
   [txt "error at 21..23: expected = followed by 3 twig expressions but found %}"; txt "error at 21..23: expected {% or {%- or {%~ but reached end of file"; txt "error at 21..23: expected endset but reached end of file"; txt "error at 21..23: expected %} or -%} or ~%} but reached end of file"]).

(** grammar/twig/tags.rs:2399 *)
Definition t_tags_2399 : ptest :=
  (txt "{% for user in users %}
    <li>{{ user.username }}</li>
{% endfor %}",
   Node ROOT [Node TWIG_FOR [Node TWIG_FOR_BLOCK [Leaf TK_CURLY_PERCENT (txt "{%"); Leaf TK_WHITESPACE (txt " "); Leaf TK_FOR (txt "for"); Node TWIG_LITERAL_NAME [Leaf TK_WHITESPACE (txt " "); Leaf TK_WORD (txt "user")]; Leaf TK_WHITESPACE (txt " "); Leaf TK_IN (txt "in"); Node TWIG_EXPRESSION [Node TWIG_LITERAL_NAME [Leaf TK_WHITESPACE (txt " "); Leaf TK_WORD (txt "users")]]; Leaf TK_WHITESPACE (txt " "); Leaf TK_PERCENT_CURLY (txt "%}")]; Node BODY [Node HTML_TAG [Node HTML_STARTING_TAG [Leaf TK_LINE_BREAK (txt "
"); Leaf TK_WHITESPACE (txt "    "); Leaf TK_LESS_THAN (txt "<"); Leaf TK_WORD (txt "li"); Node HTML_ATTRIBUTE_LIST []; Leaf TK_GREATER_THAN (txt ">")]; Node BODY [Node TWIG_VAR [Leaf TK_OPEN_CURLY_CURLY (txt "{{"); Node TWIG_EXPRESSION [Node TWIG_ACCESSOR [Node TWIG_OPERAND [Node TWIG_LITERAL_NAME [Leaf TK_WHITESPACE (txt " "); Leaf TK_WORD (txt "user")]]; Leaf TK_DOT (txt "."); Node TWIG_OPERAND [Node TWIG_LITERAL_NAME [Leaf TK_WORD (txt "username")]]]]; Leaf TK_WHITESPACE (txt " "); Leaf TK_CLOSE_CURLY_CURLY (txt "}}")]]; Node HTML_ENDING_TAG [Leaf TK_LESS_THAN_SLASH (txt "</"); Leaf TK_WORD (txt "li"); Leaf TK_GREATER_THAN (txt ">")]]]; Node TWIG_ENDFOR_BLOCK [Leaf TK_LINE_BREAK (txt "
"); Leaf TK_CURLY_PERCENT (txt "{%"); Leaf TK_WHITESPACE (txt " "); Leaf TK_ENDFOR (txt "endfor"); Leaf TK_WHITESPACE (txt " "); Leaf TK_PERCENT_CURLY (txt "%}")]]],
   []).

(** grammar/twig/tags.rs:2461 *)
Definition t_tags_2461 : ptest :=
  (txt "{% for i in 0..10 %}
    * {{ i }}
{% endfor %}",
   Node ROOT [Node TWIG_FOR [Node TWIG_FOR_BLOCK [Leaf TK_CURLY_PERCENT (txt "{%"); Leaf TK_WHITESPACE (txt " "); Leaf TK_FOR (txt "for"); Node TWIG_LITERAL_NAME [Leaf TK_WHITESPACE (txt " "); Leaf TK_WORD (txt "i")]; Leaf TK_WHITESPACE (txt " "); Leaf TK_IN (txt "in"); Node TWIG_EXPRESSION [Node TWIG_BINARY_EXPRESSION [Node TWIG_EXPRESSION [Node TWIG_LITERAL_NUMBER [Leaf TK_WHITESPACE (txt " "); Leaf TK_NUMBER (txt "0")]]; Leaf TK_DOUBLE_DOT (txt ".."); Node TWIG_EXPRESSION [Node TWIG_LITERAL_NUMBER [Leaf TK_NUMBER (txt "10")]]]]; Leaf TK_WHITESPACE (txt " "); Leaf TK_PERCENT_CURLY (txt "%}")]; Node BODY [Node HTML_TEXT [Leaf TK_LINE_BREAK (txt "
"); Leaf TK_WHITESPACE (txt "    "); Leaf TK_STAR (txt "*")]; Node TWIG_VAR [Leaf TK_WHITESPACE (txt " "); Leaf TK_OPEN_CURLY_CURLY (txt "{{"); Node TWIG_EXPRESSION [Node TWIG_LITERAL_NAME [Leaf TK_WHITESPACE (txt " "); Leaf TK_WORD (txt "i")]]; Leaf TK_WHITESPACE (txt " "); Leaf TK_CLOSE_CURLY_CURLY (txt "}}")]]; Node TWIG_ENDFOR_BLOCK [Leaf TK_LINE_BREAK (txt "
"); Leaf TK_CURLY_PERCENT (txt "{%"); Leaf TK_WHITESPACE (txt " "); Leaf TK_ENDFOR (txt "endfor"); Leaf TK_WHITESPACE (txt " "); Leaf TK_PERCENT_CURLY (txt "%}")]]],
   []).

(** grammar/twig/tags.rs:2515 *)
Definition t_tags_2515 : ptest :=
  (txt "{% for letter in 'a'|upper..'z'|upper %}
    * {{ letter }}
{% endfor %}",
   Node ROOT [Node TWIG_FOR [Node TWIG_FOR_BLOCK [Leaf TK_CURLY_PERCENT (txt "{%"); Leaf TK_WHITESPACE (txt " "); Leaf TK_FOR (txt "for"); Node TWIG_LITERAL_NAME [Leaf TK_WHITESPACE (txt " "); Leaf TK_WORD (txt "letter")]; Leaf TK_WHITESPACE (txt " "); Leaf TK_IN (txt "in"); Node TWIG_EXPRESSION [Node TWIG_BINARY_EXPRESSION [Node TWIG_EXPRESSION [Node TWIG_FILTER [Node TWIG_OPERAND [Node TWIG_LITERAL_STRING [Leaf TK_WHITESPACE (txt " "); Leaf TK_SINGLE_QUOTES (txt "'"); Node TWIG_LITERAL_STRING_INNER [Leaf TK_WORD (txt "a")]; Leaf TK_SINGLE_QUOTES (txt "'")]]; Leaf TK_SINGLE_PIPE (txt "|"); Node TWIG_OPERAND [Node TWIG_LITERAL_NAME [Leaf TK_WORD (txt "upper")]]]]; Leaf TK_DOUBLE_DOT (txt ".."); Node TWIG_EXPRESSION [Node TWIG_FILTER [Node TWIG_OPERAND [Node TWIG_LITERAL_STRING [Leaf TK_SINGLE_QUOTES (txt "'"); Node TWIG_LITERAL_STRING_INNER [Leaf TK_WORD (txt "z")]; Leaf TK_SINGLE_QUOTES (txt "'")]]; Leaf TK_SINGLE_PIPE (txt "|"); Node TWIG_OPERAND [Node TWIG_LITERAL_NAME [Leaf TK_WORD (txt "upper")]]]]]]; Leaf TK_WHITESPACE (txt " "); Leaf TK_PERCENT_CURLY (txt "%}")]; Node BODY [Node HTML_TEXT [Leaf TK_LINE_BREAK (txt "
"); Leaf TK_WHITESPACE (txt "    "); Leaf TK_STAR (txt "*")]; Node TWIG_VAR [Leaf TK_WHITESPACE (txt " "); Leaf TK_OPEN_CURLY_CURLY (txt "{{"); Node TWIG_EXPRESSION [Node TWIG_LITERAL_NAME [Leaf TK_WHITESPACE (txt " "); Leaf TK_WORD (txt "letter")]]; Leaf TK_WHITESPACE (txt " "); Leaf TK_CLOSE_CURLY_CURLY (txt "}}")]]; Node TWIG_ENDFOR_BLOCK [Leaf TK_LINE_BREAK (txt "
"); Leaf TK_CURLY_PERCENT (txt "{%"); Leaf TK_WHITESPACE (txt " "); Leaf TK_ENDFOR (txt "endfor"); Leaf TK_WHITESPACE (txt " "); Leaf TK_PERCENT_CURLY (txt "%}")]]],
   []).

(** grammar/twig/tags.rs:2587 *)
Definition t_tags_2587 : ptest :=
  (txt "{% for key, user in users %}
    <li>{{ key }}: {{ user.username|e }}</li>
{% endfor %}",
   Node ROOT [Node TWIG_FOR [Node TWIG_FOR_BLOCK [Leaf TK_CURLY_PERCENT (txt "{%"); Leaf TK_WHITESPACE (txt " "); Leaf TK_FOR (txt "for"); Node TWIG_LITERAL_NAME [Leaf TK_WHITESPACE (txt " "); Leaf TK_WORD (txt "key")]; Leaf TK_COMMA (txt ","); Node TWIG_LITERAL_NAME [Leaf TK_WHITESPACE (txt " "); Leaf TK_WORD (txt "user")]; Leaf TK_WHITESPACE (txt " "); Leaf TK_IN (txt "in"); Node TWIG_EXPRESSION [Node TWIG_LITERAL_NAME [Leaf TK_WHITESPACE (txt " "); Leaf TK_WORD (txt "users")]]; Leaf TK_WHITESPACE (txt " "); Leaf TK_PERCENT_CURLY (txt "%}")]; Node BODY [Node HTML_TAG [Node HTML_STARTING_TAG [Leaf TK_LINE_BREAK (txt "
"); Leaf TK_WHITESPACE (txt "    "); Leaf TK_LESS_THAN (txt "<"); Leaf TK_WORD (txt "li"); Node HTML_ATTRIBUTE_LIST []; Leaf TK_GREATER_THAN (txt ">")]; Node BODY [Node TWIG_VAR [Leaf TK_OPEN_CURLY_CURLY (txt "{{"); Node TWIG_EXPRESSION [Node TWIG_LITERAL_NAME [Leaf TK_WHITESPACE (txt " "); Leaf TK_WORD (txt "key")]]; Leaf TK_WHITESPACE (txt " "); Leaf TK_CLOSE_CURLY_CURLY (txt "}}")]; Node HTML_TEXT [Leaf TK_COLON (txt ":")]; Node TWIG_VAR [Leaf TK_WHITESPACE (txt " "); Leaf TK_OPEN_CURLY_CURLY (txt "{{"); Node TWIG_EXPRESSION [Node TWIG_FILTER [Node TWIG_OPERAND [Node TWIG_ACCESSOR [Node TWIG_OPERAND [Node TWIG_LITERAL_NAME [Leaf TK_WHITESPACE (txt " "); Leaf TK_WORD (txt "user")]]; Leaf TK_DOT (txt "."); Node TWIG_OPERAND [Node TWIG_LITERAL_NAME [Leaf TK_WORD (txt "username")]]]]; Leaf TK_SINGLE_PIPE (txt "|"); Node TWIG_OPERAND [Node TWIG_LITERAL_NAME [Leaf TK_WORD (txt "e")]]]]; Leaf TK_WHITESPACE (txt " "); Leaf TK_CLOSE_CURLY_CURLY (txt "}}")]]; Node HTML_ENDING_TAG [Leaf TK_LESS_THAN_SLASH (txt "</"); Leaf TK_WORD (txt "li"); Leaf TK_GREATER_THAN (txt ">")]]]; Node TWIG_ENDFOR_BLOCK [Leaf TK_LINE_BREAK (txt "
"); Leaf TK_CURLY_PERCENT (txt "{%"); Leaf TK_WHITESPACE (txt " "); Leaf TK_ENDFOR (txt "endfor"); Leaf TK_WHITESPACE (txt " "); Leaf TK_PERCENT_CURLY (txt "%}")]]],
   []).

(** grammar/twig/tags.rs:2670 *)
Definition t_tags_2670 : ptest :=
  (txt "{% for user in users %}
    <li>{{ user.username }}</li>
{% else %}
    <li><em>no user found</em></li>
{% endfor %}",
   Node ROOT [Node TWIG_FOR [Node TWIG_FOR_BLOCK [Leaf TK_CURLY_PERCENT (txt "{%"); Leaf TK_WHITESPACE (txt " "); Leaf TK_FOR (txt "for"); Node TWIG_LITERAL_NAME [Leaf TK_WHITESPACE (txt " "); Leaf TK_WORD (txt "user")]; Leaf TK_WHITESPACE (txt " "); Leaf TK_IN (txt "in"); Node TWIG_EXPRESSION [Node TWIG_LITERAL_NAME [Leaf TK_WHITESPACE (txt " "); Leaf TK_WORD (txt "users")]]; Leaf TK_WHITESPACE (txt " "); Leaf TK_PERCENT_CURLY (txt "%}")]; Node BODY [Node HTML_TAG [Node HTML_STARTING_TAG [Leaf TK_LINE_BREAK (txt "
"); Leaf TK_WHITESPACE (txt "    "); Leaf TK_LESS_THAN (txt "<"); Leaf TK_WORD (txt "li"); Node HTML_ATTRIBUTE_LIST []; Leaf TK_GREATER_THAN (txt ">")]; Node BODY [Node TWIG_VAR [Leaf TK_OPEN_CURLY_CURLY (txt "{{"); Node TWIG_EXPRESSION [Node TWIG_ACCESSOR [Node TWIG_OPERAND [Node TWIG_LITERAL_NAME [Leaf TK_WHITESPACE (txt " "); Leaf TK_WORD (txt "user")]]; Leaf TK_DOT (txt "."); Node TWIG_OPERAND [Node TWIG_LITERAL_NAME [Leaf TK_WORD (txt "username")]]]]; Leaf TK_WHITESPACE (txt " "); Leaf TK_CLOSE_CURLY_CURLY (txt "}}")]]; Node HTML_ENDING_TAG [Leaf TK_LESS_THAN_SLASH (txt "</"); Leaf TK_WORD (txt "li"); Leaf TK_GREATER_THAN (txt ">")]]]; Node TWIG_FOR_ELSE_BLOCK [Leaf TK_LINE_BREAK (txt "
"); Leaf TK_CURLY_PERCENT (txt "{%"); Leaf TK_WHITESPACE (txt " "); Leaf TK_ELSE (txt "else"); Leaf TK_WHITESPACE (txt " "); Leaf TK_PERCENT_CURLY (txt "%}")]; Node BODY [Node HTML_TAG [Node HTML_STARTING_TAG [Leaf TK_LINE_BREAK (txt "
"); Leaf TK_WHITESPACE (txt "    "); Leaf TK_LESS_THAN (txt "<"); Leaf TK_WORD (txt "li"); Node HTML_ATTRIBUTE_LIST []; Leaf TK_GREATER_THAN (txt ">")]; Node BODY [Node HTML_TAG [Node HTML_STARTING_TAG [Leaf TK_LESS_THAN (txt "<"); Leaf TK_WORD (txt "em"); Node HTML_ATTRIBUTE_LIST []; Leaf TK_GREATER_THAN (txt ">")]; Node BODY [Node HTML_TEXT [Leaf TK_WORD (txt "no"); Leaf TK_WHITESPACE (txt " "); Leaf TK_WORD (txt "user"); Leaf TK_WHITESPACE (txt " "); Leaf TK_WORD (txt "found")]]; Node HTML_ENDING_TAG [Leaf TK_LESS_THAN_SLASH (txt "</"); Leaf TK_WORD (txt "em"); Leaf TK_GREATER_THAN (txt ">")]]]; Node HTML_ENDING_TAG [Leaf TK_LESS_THAN_SLASH (txt "</"); Leaf TK_WORD (txt "li"); Leaf TK_GREATER_THAN (txt ">")]]]; Node TWIG_ENDFOR_BLOCK [Leaf TK_LINE_BREAK (txt "
"); Leaf TK_CURLY_PERCENT (txt "{%"); Leaf TK_WHITESPACE (txt " "); Leaf TK_ENDFOR (txt "endfor"); Leaf TK_WHITESPACE (txt " "); Leaf TK_PERCENT_CURLY (txt "%}")]]],
   []).

(** grammar/twig/tags.rs:2772 *)
Definition t_tags_2772 : ptest :=
  (txt "{% for in users %}
    <li>{{ user.username }}</li>
{% endfor %}",
   Node ROOT [Node TWIG_FOR [Node TWIG_FOR_BLOCK [Leaf TK_CURLY_PERCENT (txt "{%"); Leaf TK_WHITESPACE (txt " "); Leaf TK_FOR (txt "for"); Node TWIG_LITERAL_NAME [Leaf TK_WHITESPACE (txt " "); Leaf TK_WORD (txt "in")]; Node ERROR [Leaf TK_WHITESPACE (txt " "); Leaf TK_WORD (txt "users")]; Leaf TK_WHITESPACE (txt " "); Leaf TK_PERCENT_CURLY (txt "%}")]; Node BODY [Node HTML_TAG [Node HTML_STARTING_TAG [Leaf TK_LINE_BREAK (txt "
"); Leaf TK_WHITESPACE (txt "    "); Leaf TK_LESS_THAN (txt "<"); Leaf TK_WORD (txt "li"); Node HTML_ATTRIBUTE_LIST []; Leaf TK_GREATER_THAN (txt ">")]; Node BODY [Node TWIG_VAR [Leaf TK_OPEN_CURLY_CURLY (txt "{{"); Node TWIG_EXPRESSION [Node TWIG_ACCESSOR [Node TWIG_OPERAND [Node TWIG_LITERAL_NAME [Leaf TK_WHITESPACE (txt " "); Leaf TK_WORD (txt "user")]]; Leaf TK_DOT (txt "."); Node TWIG_OPERAND [Node TWIG_LITERAL_NAME [Leaf TK_WORD (txt "username")]]]]; Leaf TK_WHITESPACE (txt " "); Leaf TK_CLOSE_CURLY_CURLY (txt "}}")]]; Node HTML_ENDING_TAG [Leaf TK_LESS_THAN_SLASH (txt "</"); Leaf TK_WORD (txt "li"); Leaf TK_GREATER_THAN (txt ">")]]]; Node TWIG_ENDFOR_BLOCK [Leaf TK_LINE_BREAK (txt "
"); Leaf TK_CURLY_PERCENT (txt "{%"); Leaf TK_WHITESPACE (txt " "); Leaf TK_ENDFOR (txt "endfor"); Leaf TK_WHITESPACE (txt " "); Leaf TK_PERCENT_CURLY (txt "%}")]]],
   [txt "error at 10..15: expected in but found word"; txt "error at 16..18: expected twig expression but found %}"]).

(** grammar/twig/tags.rs:2833 *)
Definition t_tags_2833 : ptest :=
  (txt "{% for user in %}
    <li>{{ user.username }}</li>
{% endfor %}",
   Node ROOT [Node TWIG_FOR [Node TWIG_FOR_BLOCK [Leaf TK_CURLY_PERCENT (txt "{%"); Leaf TK_WHITESPACE (txt " "); Leaf TK_FOR (txt "for"); Node TWIG_LITERAL_NAME [Leaf TK_WHITESPACE (txt " "); Leaf TK_WORD (txt "user")]; Leaf TK_WHITESPACE (txt " "); Leaf TK_IN (txt "in"); Leaf TK_WHITESPACE (txt " "); Leaf TK_PERCENT_CURLY (txt "%}")]; Node BODY [Node HTML_TAG [Node HTML_STARTING_TAG [Leaf TK_LINE_BREAK (txt "
"); Leaf TK_WHITESPACE (txt "    "); Leaf TK_LESS_THAN (txt "<"); Leaf TK_WORD (txt "li"); Node HTML_ATTRIBUTE_LIST []; Leaf TK_GREATER_THAN (txt ">")]; Node BODY [Node TWIG_VAR [Leaf TK_OPEN_CURLY_CURLY (txt "{{"); Node TWIG_EXPRESSION [Node TWIG_ACCESSOR [Node TWIG_OPERAND [Node TWIG_LITERAL_NAME [Leaf TK_WHITESPACE (txt " "); Leaf TK_WORD (txt "user")]]; Leaf TK_DOT (txt "."); Node TWIG_OPERAND [Node TWIG_LITERAL_NAME [Leaf TK_WORD (txt "username")]]]]; Leaf TK_WHITESPACE (txt " "); Leaf TK_CLOSE_CURLY_CURLY (txt "}}")]]; Node HTML_ENDING_TAG [Leaf TK_LESS_THAN_SLASH (txt "</"); Leaf TK_WORD (txt "li"); Leaf TK_GREATER_THAN (txt ">")]]]; Node TWIG_ENDFOR_BLOCK [Leaf TK_LINE_BREAK (txt "
"); Leaf TK_CURLY_PERCENT (txt "{%"); Leaf TK_WHITESPACE (txt " "); Leaf TK_ENDFOR (txt "endfor"); Leaf TK_WHITESPACE (txt " "); Leaf TK_PERCENT_CURLY (txt "%}")]]],
   [txt "error at 15..17: expected twig expression but found %}"]).

(** grammar/twig/tags.rs:2892 *)
Definition t_tags_2892 : ptest :=
  (txt "{% extends ""base.html"" %}",
   Node ROOT [Node TWIG_EXTENDS [Leaf TK_CURLY_PERCENT (txt "{%"); Leaf TK_WHITESPACE (txt " "); Leaf TK_EXTENDS (txt "extends"); Node TWIG_EXPRESSION [Node TWIG_LITERAL_STRING [Leaf TK_WHITESPACE (txt " "); Leaf TK_DOUBLE_QUOTES (txt """"); Node TWIG_LITERAL_STRING_INNER [Leaf TK_WORD (txt "base"); Leaf TK_DOT (txt "."); Leaf TK_WORD (txt "html")]; Leaf TK_DOUBLE_QUOTES (txt """")]]; Leaf TK_WHITESPACE (txt " "); Leaf TK_PERCENT_CURLY (txt "%}")]],
   []).

(** grammar/twig/tags.rs:2916 *)
Definition t_tags_2916 : ptest :=
  (txt "{% extends some_var %}",
   Node ROOT [Node TWIG_EXTENDS [Leaf TK_CURLY_PERCENT (txt "{%"); Leaf TK_WHITESPACE (txt " "); Leaf TK_EXTENDS (txt "extends"); Node TWIG_EXPRESSION [Node TWIG_LITERAL_NAME [Leaf TK_WHITESPACE (txt " "); Leaf TK_WORD (txt "some_var")]]; Leaf TK_WHITESPACE (txt " "); Leaf TK_PERCENT_CURLY (txt "%}")]],
   []).

(** grammar/twig/tags.rs:2935 *)
Definition t_tags_2935 : ptest :=
  (txt "{% extends ['layout.html', 'base_layout.html'] %}",
   Node ROOT [Node TWIG_EXTENDS [Leaf TK_CURLY_PERCENT (txt "{%"); Leaf TK_WHITESPACE (txt " "); Leaf TK_EXTENDS (txt "extends"); Node TWIG_EXPRESSION [Node TWIG_LITERAL_ARRAY [Leaf TK_WHITESPACE (txt " "); Leaf TK_OPEN_SQUARE (txt "["); Node TWIG_LITERAL_ARRAY_INNER [Node TWIG_EXPRESSION [Node TWIG_LITERAL_STRING [Leaf TK_SINGLE_QUOTES (txt "'"); Node TWIG_LITERAL_STRING_INNER [Leaf TK_WORD (txt "layout"); Leaf TK_DOT (txt "."); Leaf TK_WORD (txt "html")]; Leaf TK_SINGLE_QUOTES (txt "'")]]; Leaf TK_COMMA (txt ","); Node TWIG_EXPRESSION [Node TWIG_LITERAL_STRING [Leaf TK_WHITESPACE (txt " "); Leaf TK_SINGLE_QUOTES (txt "'"); Node TWIG_LITERAL_STRING_INNER [Leaf TK_WORD (txt "base_layout"); Leaf TK_DOT (txt "."); Leaf TK_WORD (txt "html")]; Leaf TK_SINGLE_QUOTES (txt "'")]]]; Leaf TK_CLOSE_SQUARE (txt "]")]]; Leaf TK_WHITESPACE (txt " "); Leaf TK_PERCENT_CURLY (txt "%}")]],
   []).

(** grammar/twig/tags.rs:2974 *)
Definition t_tags_2974 : ptest :=
  (txt "{% extends standalone ? ""minimum.html"" : ""base.html"" %}",
   Node ROOT [Node TWIG_EXTENDS [Leaf TK_CURLY_PERCENT (txt "{%"); Leaf TK_WHITESPACE (txt " "); Leaf TK_EXTENDS (txt "extends"); Node TWIG_EXPRESSION [Node TWIG_CONDITIONAL_EXPRESSION [Node TWIG_EXPRESSION [Node TWIG_LITERAL_NAME [Leaf TK_WHITESPACE (txt " "); Leaf TK_WORD (txt "standalone")]]; Leaf TK_WHITESPACE (txt " "); Leaf TK_QUESTION_MARK (txt "?"); Node TWIG_EXPRESSION [Node TWIG_LITERAL_STRING [Leaf TK_WHITESPACE (txt " "); Leaf TK_DOUBLE_QUOTES (txt """"); Node TWIG_LITERAL_STRING_INNER [Leaf TK_WORD (txt "minimum"); Leaf TK_DOT (txt "."); Leaf TK_WORD (txt "html")]; Leaf TK_DOUBLE_QUOTES (txt """")]]; Leaf TK_WHITESPACE (txt " "); Leaf TK_COLON (txt ":"); Node TWIG_EXPRESSION [Node TWIG_LITERAL_STRING [Leaf TK_WHITESPACE (txt " "); Leaf TK_DOUBLE_QUOTES (txt """"); Node TWIG_LITERAL_STRING_INNER [Leaf TK_WORD (txt "base"); Leaf TK_DOT (txt "."); Leaf TK_WORD (txt "html")]; Leaf TK_DOUBLE_QUOTES (txt """")]]]]; Leaf TK_WHITESPACE (txt " "); Leaf TK_PERCENT_CURLY (txt "%}")]],
   []).

(** grammar/twig/tags.rs:3017 *)
Definition t_tags_3017 : ptest :=
  (txt "{% extends %}",
   Node ROOT [Node TWIG_EXTENDS [Leaf TK_CURLY_PERCENT (txt "{%"); Leaf TK_WHITESPACE (txt " "); Leaf TK_EXTENDS (txt "extends"); Leaf TK_WHITESPACE (txt " "); Leaf TK_PERCENT_CURLY (txt "%}")]],
   [txt "error at 11..13: expected twig expression but found %}"]).

(** grammar/twig/tags.rs:3033 *)
Definition t_tags_3033 : ptest :=
  (txt "{% include 'header.html' %}",
   Node ROOT [Node TWIG_INCLUDE [Leaf TK_CURLY_PERCENT (txt "{%"); Leaf TK_WHITESPACE (txt " "); Leaf TK_INCLUDE (txt "include"); Node TWIG_EXPRESSION [Node TWIG_LITERAL_STRING [Leaf TK_WHITESPACE (txt " "); Leaf TK_SINGLE_QUOTES (txt "'"); Node TWIG_LITERAL_STRING_INNER [Leaf TK_WORD (txt "header"); Leaf TK_DOT (txt "."); Leaf TK_WORD (txt "html")]; Leaf TK_SINGLE_QUOTES (txt "'")]]; Leaf TK_WHITESPACE (txt " "); Leaf TK_PERCENT_CURLY (txt "%}")]],
   []).

(** grammar/twig/tags.rs:3057 *)
Definition t_tags_3057 : ptest :=
  (txt "{% include 'template.html' with vars %}",
   Node ROOT [Node TWIG_INCLUDE [Leaf TK_CURLY_PERCENT (txt "{%"); Leaf TK_WHITESPACE (txt " "); Leaf TK_INCLUDE (txt "include"); Node TWIG_EXPRESSION [Node TWIG_LITERAL_STRING [Leaf TK_WHITESPACE (txt " "); Leaf TK_SINGLE_QUOTES (txt "'"); Node TWIG_LITERAL_STRING_INNER [Leaf TK_WORD (txt "template"); Leaf TK_DOT (txt "."); Leaf TK_WORD (txt "html")]; Leaf TK_SINGLE_QUOTES (txt "'")]]; Node TWIG_INCLUDE_WITH [Leaf TK_WHITESPACE (txt " "); Leaf TK_WITH (txt "with"); Node TWIG_EXPRESSION [Node TWIG_LITERAL_NAME [Leaf TK_WHITESPACE (txt " "); Leaf TK_WORD (txt "vars")]]]; Leaf TK_WHITESPACE (txt " "); Leaf TK_PERCENT_CURLY (txt "%}")]],
   []).

(** grammar/twig/tags.rs:3088 *)
Definition t_tags_3088 : ptest :=
  (txt "{% include 'template.html' with {'foo': 'bar'} %}",
   Node ROOT [Node TWIG_INCLUDE [Leaf TK_CURLY_PERCENT (txt "{%"); Leaf TK_WHITESPACE (txt " "); Leaf TK_INCLUDE (txt "include"); Node TWIG_EXPRESSION [Node TWIG_LITERAL_STRING [Leaf TK_WHITESPACE (txt " "); Leaf TK_SINGLE_QUOTES (txt "'"); Node TWIG_LITERAL_STRING_INNER [Leaf TK_WORD (txt "template"); Leaf TK_DOT (txt "."); Leaf TK_WORD (txt "html")]; Leaf TK_SINGLE_QUOTES (txt "'")]]; Node TWIG_INCLUDE_WITH [Leaf TK_WHITESPACE (txt " "); Leaf TK_WITH (txt "with"); Node TWIG_EXPRESSION [Node TWIG_LITERAL_HASH [Leaf TK_WHITESPACE (txt " "); Leaf TK_OPEN_CURLY (txt "{"); Node TWIG_LITERAL_HASH_ITEMS [Node TWIG_LITERAL_HASH_PAIR [Node TWIG_LITERAL_HASH_KEY [Node TWIG_LITERAL_STRING [Leaf TK_SINGLE_QUOTES (txt "'"); Node TWIG_LITERAL_STRING_INNER [Leaf TK_WORD (txt "foo")]; Leaf TK_SINGLE_QUOTES (txt "'")]]; Leaf TK_COLON (txt ":"); Node TWIG_EXPRESSION [Node TWIG_LITERAL_STRING [Leaf TK_WHITESPACE (txt " "); Leaf TK_SINGLE_QUOTES (txt "'"); Node TWIG_LITERAL_STRING_INNER [Leaf TK_WORD (txt "bar")]; Leaf TK_SINGLE_QUOTES (txt "'")]]]]; Leaf TK_CLOSE_CURLY (txt "}")]]]; Leaf TK_WHITESPACE (txt " "); Leaf TK_PERCENT_CURLY (txt "%}")]],
   []).

(** grammar/twig/tags.rs:3136 *)
Definition t_tags_3136 : ptest :=
  (txt "{% include 'template.html' with {'foo': 'bar'} only %}",
   Node ROOT [Node TWIG_INCLUDE [Leaf TK_CURLY_PERCENT (txt "{%"); Leaf TK_WHITESPACE (txt " "); Leaf TK_INCLUDE (txt "include"); Node TWIG_EXPRESSION [Node TWIG_LITERAL_STRING [Leaf TK_WHITESPACE (txt " "); Leaf TK_SINGLE_QUOTES (txt "'"); Node TWIG_LITERAL_STRING_INNER [Leaf TK_WORD (txt "template"); Leaf TK_DOT (txt "."); Leaf TK_WORD (txt "html")]; Leaf TK_SINGLE_QUOTES (txt "'")]]; Node TWIG_INCLUDE_WITH [Leaf TK_WHITESPACE (txt " "); Leaf TK_WITH (txt "with"); Node TWIG_EXPRESSION [Node TWIG_LITERAL_HASH [Leaf TK_WHITESPACE (txt " "); Leaf TK_OPEN_CURLY (txt "{"); Node TWIG_LITERAL_HASH_ITEMS [Node TWIG_LITERAL_HASH_PAIR [Node TWIG_LITERAL_HASH_KEY [Node TWIG_LITERAL_STRING [Leaf TK_SINGLE_QUOTES (txt "'"); Node TWIG_LITERAL_STRING_INNER [Leaf TK_WORD (txt "foo")]; Leaf TK_SINGLE_QUOTES (txt "'")]]; Leaf TK_COLON (txt ":"); Node TWIG_EXPRESSION [Node TWIG_LITERAL_STRING [Leaf TK_WHITESPACE (txt " "); Leaf TK_SINGLE_QUOTES (txt "'"); Node TWIG_LITERAL_STRING_INNER [Leaf TK_WORD (txt "bar")]; Leaf TK_SINGLE_QUOTES (txt "'")]]]]; Leaf TK_CLOSE_CURLY (txt "}")]]]; Leaf TK_WHITESPACE (txt " "); Leaf TK_ONLY (txt "only"); Leaf TK_WHITESPACE (txt " "); Leaf TK_PERCENT_CURLY (txt "%}")]],
   []).

(** grammar/twig/tags.rs:3186 *)
Definition t_tags_3186 : ptest :=
  (txt "{% include 'template.html' only %}",
   Node ROOT [Node TWIG_INCLUDE [Leaf TK_CURLY_PERCENT (txt "{%"); Leaf TK_WHITESPACE (txt " "); Leaf TK_INCLUDE (txt "include"); Node TWIG_EXPRESSION [Node TWIG_LITERAL_STRING [Leaf TK_WHITESPACE (txt " "); Leaf TK_SINGLE_QUOTES (txt "'"); Node TWIG_LITERAL_STRING_INNER [Leaf TK_WORD (txt "template"); Leaf TK_DOT (txt "."); Leaf TK_WORD (txt "html")]; Leaf TK_SINGLE_QUOTES (txt "'")]]; Leaf TK_WHITESPACE (txt " "); Leaf TK_ONLY (txt "only"); Leaf TK_WHITESPACE (txt " "); Leaf TK_PERCENT_CURLY (txt "%}")]],
   []).

(** grammar/twig/tags.rs:3212 *)
Definition t_tags_3212 : ptest :=
  (txt "{% include ajax ? 'ajax.html' : 'not_ajax.html' %}",
   Node ROOT [Node TWIG_INCLUDE [Leaf TK_CURLY_PERCENT (txt "{%"); Leaf TK_WHITESPACE (txt " "); Leaf TK_INCLUDE (txt "include"); Node TWIG_EXPRESSION [Node TWIG_CONDITIONAL_EXPRESSION [Node TWIG_EXPRESSION [Node TWIG_LITERAL_NAME [Leaf TK_WHITESPACE (txt " "); Leaf TK_WORD (txt "ajax")]]; Leaf TK_WHITESPACE (txt " "); Leaf TK_QUESTION_MARK (txt "?"); Node TWIG_EXPRESSION [Node TWIG_LITERAL_STRING [Leaf TK_WHITESPACE (txt " "); Leaf TK_SINGLE_QUOTES (txt "'"); Node TWIG_LITERAL_STRING_INNER [Leaf TK_WORD (txt "ajax"); Leaf TK_DOT (txt "."); Leaf TK_WORD (txt "html")]; Leaf TK_SINGLE_QUOTES (txt "'")]]; Leaf TK_WHITESPACE (txt " "); Leaf TK_COLON (txt ":"); Node TWIG_EXPRESSION [Node TWIG_LITERAL_STRING [Leaf TK_WHITESPACE (txt " "); Leaf TK_SINGLE_QUOTES (txt "'"); Node TWIG_LITERAL_STRING_INNER [Leaf TK_WORD (txt "not_ajax"); Leaf TK_DOT (txt "."); Leaf TK_WORD (txt "html")]; Leaf TK_SINGLE_QUOTES (txt "'")]]]]; Leaf TK_WHITESPACE (txt " "); Leaf TK_PERCENT_CURLY (txt "%}")]],
   []).

(** grammar/twig/tags.rs:3255 *)
Definition t_tags_3255 : ptest :=
  (txt "{% include some_var ignore missing with {'foo': 'bar'} only %}",
   Node ROOT [Node TWIG_INCLUDE [Leaf TK_CURLY_PERCENT (txt "{%"); Leaf TK_WHITESPACE (txt " "); Leaf TK_INCLUDE (txt "include"); Node TWIG_EXPRESSION [Node TWIG_LITERAL_NAME [Leaf TK_WHITESPACE (txt " "); Leaf TK_WORD (txt "some_var")]]; Leaf TK_WHITESPACE (txt " "); Leaf TK_IGNORE_MISSING (txt "ignore missing"); Node TWIG_INCLUDE_WITH [Leaf TK_WHITESPACE (txt " "); Leaf TK_WITH (txt "with"); Node TWIG_EXPRESSION [Node TWIG_LITERAL_HASH [Leaf TK_WHITESPACE (txt " "); Leaf TK_OPEN_CURLY (txt "{"); Node TWIG_LITERAL_HASH_ITEMS [Node TWIG_LITERAL_HASH_PAIR [Node TWIG_LITERAL_HASH_KEY [Node TWIG_LITERAL_STRING [Leaf TK_SINGLE_QUOTES (txt "'"); Node TWIG_LITERAL_STRING_INNER [Leaf TK_WORD (txt "foo")]; Leaf TK_SINGLE_QUOTES (txt "'")]]; Leaf TK_COLON (txt ":"); Node TWIG_EXPRESSION [Node TWIG_LITERAL_STRING [Leaf TK_WHITESPACE (txt " "); Leaf TK_SINGLE_QUOTES (txt "'"); Node TWIG_LITERAL_STRING_INNER [Leaf TK_WORD (txt "bar")]; Leaf TK_SINGLE_QUOTES (txt "'")]]]]; Leaf TK_CLOSE_CURLY (txt "}")]]]; Leaf TK_WHITESPACE (txt " "); Leaf TK_ONLY (txt "only"); Leaf TK_WHITESPACE (txt " "); Leaf TK_PERCENT_CURLY (txt "%}")]],
   []).

(** grammar/twig/tags.rs:3302 *)
Definition t_tags_3302 : ptest :=
  (txt "{% include %}",
   Node ROOT [Node TWIG_INCLUDE [Leaf TK_CURLY_PERCENT (txt "{%"); Leaf TK_WHITESPACE (txt " "); Leaf TK_INCLUDE (txt "include"); Leaf TK_WHITESPACE (txt " "); Leaf TK_PERCENT_CURLY (txt "%}")]],
   [txt "error at 11..13: expected twig expression as template name but found %}"]).

(** grammar/twig/tags.rs:3318 *)
Definition t_tags_3318 : ptest :=
  (txt "{% include 'template.html' with %}",
   Node ROOT [Node TWIG_INCLUDE [Leaf TK_CURLY_PERCENT (txt "{%"); Leaf TK_WHITESPACE (txt " "); Leaf TK_INCLUDE (txt "include"); Node TWIG_EXPRESSION [Node TWIG_LITERAL_STRING [Leaf TK_WHITESPACE (txt " "); Leaf TK_SINGLE_QUOTES (txt "'"); Node TWIG_LITERAL_STRING_INNER [Leaf TK_WORD (txt "template"); Leaf TK_DOT (txt "."); Leaf TK_WORD (txt "html")]; Leaf TK_SINGLE_QUOTES (txt "'")]]; Node TWIG_INCLUDE_WITH [Leaf TK_WHITESPACE (txt " "); Leaf TK_WITH (txt "with")]; Leaf TK_WHITESPACE (txt " "); Leaf TK_PERCENT_CURLY (txt "%}")]],
   [txt "error at 32..34: expected twig expression as with value but found %}"]).

(** grammar/twig/tags.rs:3346 *)
Definition t_tags_3346 : ptest :=
  (txt "{% include ['page_detailed.html', 'page.html'] %}",
   Node ROOT [Node TWIG_INCLUDE [Leaf TK_CURLY_PERCENT (txt "{%"); Leaf TK_WHITESPACE (txt " "); Leaf TK_INCLUDE (txt "include"); Node TWIG_EXPRESSION [Node TWIG_LITERAL_ARRAY [Leaf TK_WHITESPACE (txt " "); Leaf TK_OPEN_SQUARE (txt "["); Node TWIG_LITERAL_ARRAY_INNER [Node TWIG_EXPRESSION [Node TWIG_LITERAL_STRING [Leaf TK_SINGLE_QUOTES (txt "'"); Node TWIG_LITERAL_STRING_INNER [Leaf TK_WORD (txt "page_detailed"); Leaf TK_DOT (txt "."); Leaf TK_WORD (txt "html")]; Leaf TK_SINGLE_QUOTES (txt "'")]]; Leaf TK_COMMA (txt ","); Node TWIG_EXPRESSION [Node TWIG_LITERAL_STRING [Leaf TK_WHITESPACE (txt " "); Leaf TK_SINGLE_QUOTES (txt "'"); Node TWIG_LITERAL_STRING_INNER [Leaf TK_WORD (txt "page"); Leaf TK_DOT (txt "."); Leaf TK_WORD (txt "html")]; Leaf TK_SINGLE_QUOTES (txt "'")]]]; Leaf TK_CLOSE_SQUARE (txt "]")]]; Leaf TK_WHITESPACE (txt " "); Leaf TK_PERCENT_CURLY (txt "%}")]],
   []).

(** grammar/twig/tags.rs:3385 *)
Definition t_tags_3385 : ptest :=
  (txt "{% use ""blocks.html"" %}",
   Node ROOT [Node TWIG_USE [Leaf TK_CURLY_PERCENT (txt "{%"); Leaf TK_WHITESPACE (txt " "); Leaf TK_USE (txt "use"); Node TWIG_LITERAL_STRING [Leaf TK_WHITESPACE (txt " "); Leaf TK_DOUBLE_QUOTES (txt """"); Node TWIG_LITERAL_STRING_INNER [Leaf TK_WORD (txt "blocks"); Leaf TK_DOT (txt "."); Leaf TK_WORD (txt "html")]; Leaf TK_DOUBLE_QUOTES (txt """")]; Leaf TK_WHITESPACE (txt " "); Leaf TK_PERCENT_CURLY (txt "%}")]],
   []).

(** grammar/twig/tags.rs:3410 *)
Definition t_tags_3410 : ptest :=
  (txt "{% use ""blocks#{1+1}.html"" %}",
   Node ROOT [Node TWIG_USE [Leaf TK_CURLY_PERCENT (txt "{%"); Leaf TK_WHITESPACE (txt " "); Leaf TK_USE (txt "use"); Node TWIG_LITERAL_STRING [Leaf TK_WHITESPACE (txt " "); Leaf TK_DOUBLE_QUOTES (txt """"); Node TWIG_LITERAL_STRING_INNER [Leaf TK_WORD (txt "blocks"); Leaf TK_HASHTAG (txt "#"); Leaf TK_OPEN_CURLY (txt "{"); Leaf TK_NUMBER (txt "1"); Leaf TK_PLUS (txt "+"); Leaf TK_NUMBER (txt "1"); Leaf TK_CLOSE_CURLY (txt "}"); Leaf TK_DOT (txt "."); Leaf TK_WORD (txt "html")]; Leaf TK_DOUBLE_QUOTES (txt """")]; Leaf TK_WHITESPACE (txt " "); Leaf TK_PERCENT_CURLY (txt "%}")]],
   [txt "error at 14..15: expected no string interpolation, because it isn't allowed here but found #"]).

(** grammar/twig/tags.rs:3440 *)
Definition t_tags_3440 : ptest :=
  (txt "{% use ""blocks.html"" with sidebar as base_sidebar, title as base_title %}",
   Node ROOT [Node TWIG_USE [Leaf TK_CURLY_PERCENT (txt "{%"); Leaf TK_WHITESPACE (txt " "); Leaf TK_USE (txt "use"); Node TWIG_LITERAL_STRING [Leaf TK_WHITESPACE (txt " "); Leaf TK_DOUBLE_QUOTES (txt """"); Node TWIG_LITERAL_STRING_INNER [Leaf TK_WORD (txt "blocks"); Leaf TK_DOT (txt "."); Leaf TK_WORD (txt "html")]; Leaf TK_DOUBLE_QUOTES (txt """")]; Leaf TK_WHITESPACE (txt " "); Leaf TK_WITH (txt "with"); Node TWIG_OVERRIDE [Node TWIG_LITERAL_NAME [Leaf TK_WHITESPACE (txt " "); Leaf TK_WORD (txt "sidebar")]; Leaf TK_WHITESPACE (txt " "); Leaf TK_AS (txt "as"); Node TWIG_LITERAL_NAME [Leaf TK_WHITESPACE (txt " "); Leaf TK_WORD (txt "base_sidebar")]]; Leaf TK_COMMA (txt ","); Node TWIG_OVERRIDE [Node TWIG_LITERAL_NAME [Leaf TK_WHITESPACE (txt " "); Leaf TK_WORD (txt "title")]; Leaf TK_WHITESPACE (txt " "); Leaf TK_AS (txt "as"); Node TWIG_LITERAL_NAME [Leaf TK_WHITESPACE (txt " "); Leaf TK_WORD (txt "base_title")]]; Leaf TK_WHITESPACE (txt " "); Leaf TK_PERCENT_CURLY (txt "%}")]],
   []).

(** grammar/twig/tags.rs:3484 *)
Definition t_tags_3484 : ptest :=
  (txt "{% use ""blocks.html"" with %}",
   Node ROOT [Node TWIG_USE [Leaf TK_CURLY_PERCENT (txt "{%"); Leaf TK_WHITESPACE (txt " "); Leaf TK_USE (txt "use"); Node TWIG_LITERAL_STRING [Leaf TK_WHITESPACE (txt " "); Leaf TK_DOUBLE_QUOTES (txt """"); Node TWIG_LITERAL_STRING_INNER [Leaf TK_WORD (txt "blocks"); Leaf TK_DOT (txt "."); Leaf TK_WORD (txt "html")]; Leaf TK_DOUBLE_QUOTES (txt """")]; Leaf TK_WHITESPACE (txt " "); Leaf TK_WITH (txt "with"); Leaf TK_WHITESPACE (txt " "); Leaf TK_PERCENT_CURLY (txt "%}")]],
   [txt "error at 26..28: expected at least one block name as block name but found %}"]).

(** grammar/twig/tags.rs:3510 *)
Definition t_tags_3510 : ptest :=
  (txt "{% use ""blocks.html"" with a %}",
   Node ROOT [Node TWIG_USE [Leaf TK_CURLY_PERCENT (txt "{%"); Leaf TK_WHITESPACE (txt " "); Leaf TK_USE (txt "use"); Node TWIG_LITERAL_STRING [Leaf TK_WHITESPACE (txt " "); Leaf TK_DOUBLE_QUOTES (txt """"); Node TWIG_LITERAL_STRING_INNER [Leaf TK_WORD (txt "blocks"); Leaf TK_DOT (txt "."); Leaf TK_WORD (txt "html")]; Leaf TK_DOUBLE_QUOTES (txt """")]; Leaf TK_WHITESPACE (txt " "); Leaf TK_WITH (txt "with"); Node TWIG_OVERRIDE [Node TWIG_LITERAL_NAME [Leaf TK_WHITESPACE (txt " "); Leaf TK_WORD (txt "a")]]; Leaf TK_WHITESPACE (txt " "); Leaf TK_PERCENT_CURLY (txt "%}")]],
   []).

(** grammar/twig/tags.rs:3539 *)
Definition t_tags_3539 : ptest :=
  (txt "{% apply upper %}
    This text becomes uppercase
{% endapply %}",
   Node ROOT [Node TWIG_APPLY [Node TWIG_APPLY_STARTING_BLOCK [Leaf TK_CURLY_PERCENT (txt "{%"); Leaf TK_WHITESPACE (txt " "); Leaf TK_APPLY (txt "apply"); Node TWIG_LITERAL_NAME [Leaf TK_WHITESPACE (txt " "); Leaf TK_WORD (txt "upper")]; Leaf TK_WHITESPACE (txt " "); Leaf TK_PERCENT_CURLY (txt "%}")]; Node BODY [Node HTML_TEXT [Leaf TK_LINE_BREAK (txt "
"); Leaf TK_WHITESPACE (txt "    "); Leaf TK_WORD (txt "This"); Leaf TK_WHITESPACE (txt " "); Leaf TK_WORD (txt "text"); Leaf TK_WHITESPACE (txt " "); Leaf TK_WORD (txt "becomes"); Leaf TK_WHITESPACE (txt " "); Leaf TK_WORD (txt "uppercase")]]; Node TWIG_APPLY_ENDING_BLOCK [Leaf TK_LINE_BREAK (txt "
"); Leaf TK_CURLY_PERCENT (txt "{%"); Leaf TK_WHITESPACE (txt " "); Leaf TK_ENDAPPLY (txt "endapply"); Leaf TK_WHITESPACE (txt " "); Leaf TK_PERCENT_CURLY (txt "%}")]]],
   []).

(** grammar/twig/tags.rs:3578 *)
Definition t_tags_3578 : ptest :=
  (txt "{% apply trim('-', side='left') %}
    This text becomes trimmed
{% endapply %}",
   Node ROOT [Node TWIG_APPLY [Node TWIG_APPLY_STARTING_BLOCK [Leaf TK_CURLY_PERCENT (txt "{%"); Leaf TK_WHITESPACE (txt " "); Leaf TK_APPLY (txt "apply"); Node TWIG_LITERAL_NAME [Leaf TK_WHITESPACE (txt " "); Leaf TK_WORD (txt "trim")]; Node TWIG_ARGUMENTS [Leaf TK_OPEN_PARENTHESIS (txt "("); Node TWIG_EXPRESSION [Node TWIG_LITERAL_STRING [Leaf TK_SINGLE_QUOTES (txt "'"); Node TWIG_LITERAL_STRING_INNER [Leaf TK_MINUS (txt "-")]; Leaf TK_SINGLE_QUOTES (txt "'")]]; Leaf TK_COMMA (txt ","); Node TWIG_NAMED_ARGUMENT [Leaf TK_WHITESPACE (txt " "); Leaf TK_WORD (txt "side"); Leaf TK_EQUAL (txt "="); Node TWIG_EXPRESSION [Node TWIG_LITERAL_STRING [Leaf TK_SINGLE_QUOTES (txt "'"); Node TWIG_LITERAL_STRING_INNER [Leaf TK_WORD (txt "left")]; Leaf TK_SINGLE_QUOTES (txt "'")]]]; Leaf TK_CLOSE_PARENTHESIS (txt ")")]; Leaf TK_WHITESPACE (txt " "); Leaf TK_PERCENT_CURLY (txt "%}")]; Node BODY [Node HTML_TEXT [Leaf TK_LINE_BREAK (txt "
"); Leaf TK_WHITESPACE (txt "    "); Leaf TK_WORD (txt "This"); Leaf TK_WHITESPACE (txt " "); Leaf TK_WORD (txt "text"); Leaf TK_WHITESPACE (txt " "); Leaf TK_WORD (txt "becomes"); Leaf TK_WHITESPACE (txt " "); Leaf TK_WORD (txt "trimmed")]]; Node TWIG_APPLY_ENDING_BLOCK [Leaf TK_LINE_BREAK (txt "
"); Leaf TK_CURLY_PERCENT (txt "{%"); Leaf TK_WHITESPACE (txt " "); Leaf TK_ENDAPPLY (txt "endapply"); Leaf TK_WHITESPACE (txt " "); Leaf TK_PERCENT_CURLY (txt "%}")]]],
   []).

(** grammar/twig/tags.rs:3637 *)
Definition t_tags_3637 : ptest :=
  (txt "{% apply lower|escape('html')|trim('-', side='left') %}
    <strong>SOME TEXT</strong>
{% endapply %}",
   Node ROOT [Node TWIG_APPLY [Node TWIG_APPLY_STARTING_BLOCK [Leaf TK_CURLY_PERCENT (txt "{%"); Leaf TK_WHITESPACE (txt " "); Leaf TK_APPLY (txt "apply"); Node TWIG_FILTER [Node TWIG_OPERAND [Node TWIG_FILTER [Node TWIG_OPERAND [Node TWIG_LITERAL_NAME [Leaf TK_WHITESPACE (txt " "); Leaf TK_WORD (txt "lower")]]; Leaf TK_SINGLE_PIPE (txt "|"); Node TWIG_OPERAND [Node TWIG_LITERAL_NAME [Leaf TK_WORD (txt "escape")]; Node TWIG_ARGUMENTS [Leaf TK_OPEN_PARENTHESIS (txt "("); Node TWIG_EXPRESSION [Node TWIG_LITERAL_STRING [Leaf TK_SINGLE_QUOTES (txt "'"); Node TWIG_LITERAL_STRING_INNER [Leaf TK_WORD (txt "html")]; Leaf TK_SINGLE_QUOTES (txt "'")]]; Leaf TK_CLOSE_PARENTHESIS (txt ")")]]]]; Leaf TK_SINGLE_PIPE (txt "|"); Node TWIG_OPERAND [Node TWIG_LITERAL_NAME [Leaf TK_WORD (txt "trim")]; Node TWIG_ARGUMENTS [Leaf TK_OPEN_PARENTHESIS (txt "("); Node TWIG_EXPRESSION [Node TWIG_LITERAL_STRING [Leaf TK_SINGLE_QUOTES (txt "'"); Node TWIG_LITERAL_STRING_INNER [Leaf TK_MINUS (txt "-")]; Leaf TK_SINGLE_QUOTES (txt "'")]]; Leaf TK_COMMA (txt ","); Node TWIG_NAMED_ARGUMENT [Leaf TK_WHITESPACE (txt " "); Leaf TK_WORD (txt "side"); Leaf TK_EQUAL (txt "="); Node TWIG_EXPRESSION [Node TWIG_LITERAL_STRING [Leaf TK_SINGLE_QUOTES (txt "'"); Node TWIG_LITERAL_STRING_INNER [Leaf TK_WORD (txt "left")]; Leaf TK_SINGLE_QUOTES (txt "'")]]]; Leaf TK_CLOSE_PARENTHESIS (txt ")")]]]; Leaf TK_WHITESPACE (txt " "); Leaf TK_PERCENT_CURLY (txt "%}")]; Node BODY [Node HTML_TAG [Node HTML_STARTING_TAG [Leaf TK_LINE_BREAK (txt "
"); Leaf TK_WHITESPACE (txt "    "); Leaf TK_LESS_THAN (txt "<"); Leaf TK_WORD (txt "strong"); Node HTML_ATTRIBUTE_LIST []; Leaf TK_GREATER_THAN (txt ">")]; Node BODY [Node HTML_TEXT [Leaf TK_WORD (txt "SOME"); Leaf TK_WHITESPACE (txt " "); Leaf TK_WORD (txt "TEXT")]]; Node HTML_ENDING_TAG [Leaf TK_LESS_THAN_SLASH (txt "</"); Leaf TK_WORD (txt "strong"); Leaf TK_GREATER_THAN (txt ">")]]]; Node TWIG_APPLY_ENDING_BLOCK [Leaf TK_LINE_BREAK (txt "
"); Leaf TK_CURLY_PERCENT (txt "{%"); Leaf TK_WHITESPACE (txt " "); Leaf TK_ENDAPPLY (txt "endapply"); Leaf TK_WHITESPACE (txt " "); Leaf TK_PERCENT_CURLY (txt "%}")]]],
   []).

(** grammar/twig/tags.rs:3724 *)
Definition t_tags_3724 : ptest :=
  (txt "{% apply %}
    SOME TEXT
{% endapply %}",
   Node ROOT [Node TWIG_APPLY [Node TWIG_APPLY_STARTING_BLOCK [Leaf TK_CURLY_PERCENT (txt "{%"); Leaf TK_WHITESPACE (txt " "); Leaf TK_APPLY (txt "apply"); Leaf TK_WHITESPACE (txt " "); Leaf TK_PERCENT_CURLY (txt "%}")]; Node BODY [Node HTML_TEXT [Leaf TK_LINE_BREAK (txt "
"); Leaf TK_WHITESPACE (txt "    "); Leaf TK_WORD (txt "SOME"); Leaf TK_WHITESPACE (txt " "); Leaf TK_WORD (txt "TEXT")]]; Node TWIG_APPLY_ENDING_BLOCK [Leaf TK_LINE_BREAK (txt "
"); Leaf TK_CURLY_PERCENT (txt "{%"); Leaf TK_WHITESPACE (txt " "); Leaf TK_ENDAPPLY (txt "endapply"); Leaf TK_WHITESPACE (txt " "); Leaf TK_PERCENT_CURLY (txt "%}")]]],
   [txt "error at 9..11: expected twig filter but found %}"]).

(** grammar/twig/tags.rs:3757 *)
Definition t_tags_3757 : ptest :=
  (txt "{% apply 5 %}
    SOME TEXT
{% endapply %}",
   Node ROOT [Node TWIG_APPLY [Node TWIG_APPLY_STARTING_BLOCK [Leaf TK_CURLY_PERCENT (txt "{%"); Leaf TK_WHITESPACE (txt " "); Leaf TK_APPLY (txt "apply"); Node ERROR [Leaf TK_WHITESPACE (txt " "); Leaf TK_NUMBER (txt "5")]; Leaf TK_WHITESPACE (txt " "); Leaf TK_PERCENT_CURLY (txt "%}")]; Node BODY [Node HTML_TEXT [Leaf TK_LINE_BREAK (txt "
"); Leaf TK_WHITESPACE (txt "    "); Leaf TK_WORD (txt "SOME"); Leaf TK_WHITESPACE (txt " "); Leaf TK_WORD (txt "TEXT")]]; Node TWIG_APPLY_ENDING_BLOCK [Leaf TK_LINE_BREAK (txt "
"); Leaf TK_CURLY_PERCENT (txt "{%"); Leaf TK_WHITESPACE (txt " "); Leaf TK_ENDAPPLY (txt "endapply"); Leaf TK_WHITESPACE (txt " "); Leaf TK_PERCENT_CURLY (txt "%}")]]],
   [txt "error at 9..10: expected twig filter but found number"]).

(** grammar/twig/tags.rs:3793 *)
Definition t_tags_3793 : ptest :=
  (txt "{% autoescape %}
    Everything will be automatically escaped in this block
    using the HTML strategy
{% endautoescape %}",
   Node ROOT [Node TWIG_AUTOESCAPE [Node TWIG_AUTOESCAPE_STARTING_BLOCK [Leaf TK_CURLY_PERCENT (txt "{%"); Leaf TK_WHITESPACE (txt " "); Leaf TK_AUTOESCAPE (txt "autoescape"); Leaf TK_WHITESPACE (txt " "); Leaf TK_PERCENT_CURLY (txt "%}")]; Node BODY [Node HTML_TEXT [Leaf TK_LINE_BREAK (txt "
"); Leaf TK_WHITESPACE (txt "    "); Leaf TK_WORD (txt "Everything"); Leaf TK_WHITESPACE (txt " "); Leaf TK_WORD (txt "will"); Leaf TK_WHITESPACE (txt " "); Leaf TK_WORD (txt "be"); Leaf TK_WHITESPACE (txt " "); Leaf TK_WORD (txt "automatically"); Leaf TK_WHITESPACE (txt " "); Leaf TK_WORD (txt "escaped"); Leaf TK_WHITESPACE (txt " "); Leaf TK_IN (txt "in"); Leaf TK_WHITESPACE (txt " "); Leaf TK_WORD (txt "this"); Leaf TK_WHITESPACE (txt " "); Leaf TK_BLOCK (txt "block"); Leaf TK_LINE_BREAK (txt "
"); Leaf TK_WHITESPACE (txt "    "); Leaf TK_WORD (txt "using"); Leaf TK_WHITESPACE (txt " "); Leaf TK_WORD (txt "the"); Leaf TK_WHITESPACE (txt " "); Leaf TK_WORD (txt "HTML"); Leaf TK_WHITESPACE (txt " "); Leaf TK_WORD (txt "strategy")]]; Node TWIG_AUTOESCAPE_ENDING_BLOCK [Leaf TK_LINE_BREAK (txt "
"); Leaf TK_CURLY_PERCENT (txt "{%"); Leaf TK_WHITESPACE (txt " "); Leaf TK_ENDAUTOESCAPE (txt "endautoescape"); Leaf TK_WHITESPACE (txt " "); Leaf TK_PERCENT_CURLY (txt "%}")]]],
   []).

(** grammar/twig/tags.rs:3847 *)
Definition t_tags_3847 : ptest :=
  (txt "{% autoescape 'js' %}
    Everything will be automatically escaped in this block
    using the js escaping strategy
{% endautoescape %}",
   Node ROOT [Node TWIG_AUTOESCAPE [Node TWIG_AUTOESCAPE_STARTING_BLOCK [Leaf TK_CURLY_PERCENT (txt "{%"); Leaf TK_WHITESPACE (txt " "); Leaf TK_AUTOESCAPE (txt "autoescape"); Node TWIG_LITERAL_STRING [Leaf TK_WHITESPACE (txt " "); Leaf TK_SINGLE_QUOTES (txt "'"); Node TWIG_LITERAL_STRING_INNER [Leaf TK_WORD (txt "js")]; Leaf TK_SINGLE_QUOTES (txt "'")]; Leaf TK_WHITESPACE (txt " "); Leaf TK_PERCENT_CURLY (txt "%}")]; Node BODY [Node HTML_TEXT [Leaf TK_LINE_BREAK (txt "
"); Leaf TK_WHITESPACE (txt "    "); Leaf TK_WORD (txt "Everything"); Leaf TK_WHITESPACE (txt " "); Leaf TK_WORD (txt "will"); Leaf TK_WHITESPACE (txt " "); Leaf TK_WORD (txt "be"); Leaf TK_WHITESPACE (txt " "); Leaf TK_WORD (txt "automatically"); Leaf TK_WHITESPACE (txt " "); Leaf TK_WORD (txt "escaped"); Leaf TK_WHITESPACE (txt " "); Leaf TK_IN (txt "in"); Leaf TK_WHITESPACE (txt " "); Leaf TK_WORD (txt "this"); Leaf TK_WHITESPACE (txt " "); Leaf TK_BLOCK (txt "block"); Leaf TK_LINE_BREAK (txt "
"); Leaf TK_WHITESPACE (txt "    "); Leaf TK_WORD (txt "using"); Leaf TK_WHITESPACE (txt " "); Leaf TK_WORD (txt "the"); Leaf TK_WHITESPACE (txt " "); Leaf TK_WORD (txt "js"); Leaf TK_WHITESPACE (txt " "); Leaf TK_WORD (txt "escaping"); Leaf TK_WHITESPACE (txt " "); Leaf TK_WORD (txt "strategy")]]; Node TWIG_AUTOESCAPE_ENDING_BLOCK [Leaf TK_LINE_BREAK (txt "
"); Leaf TK_CURLY_PERCENT (txt "{%"); Leaf TK_WHITESPACE (txt " "); Leaf TK_ENDAUTOESCAPE (txt "endautoescape"); Leaf TK_WHITESPACE (txt " "); Leaf TK_PERCENT_CURLY (txt "%}")]]],
   []).

(** grammar/twig/tags.rs:3909 *)
Definition t_tags_3909 : ptest :=
  (txt "{% autoescape false %}
    Everything will be outputted as is in this block
{% endautoescape %}",
   Node ROOT [Node TWIG_AUTOESCAPE [Node TWIG_AUTOESCAPE_STARTING_BLOCK [Leaf TK_CURLY_PERCENT (txt "{%"); Leaf TK_WHITESPACE (txt " "); Leaf TK_AUTOESCAPE (txt "autoescape"); Leaf TK_WHITESPACE (txt " "); Leaf TK_FALSE (txt "false"); Leaf TK_WHITESPACE (txt " "); Leaf TK_PERCENT_CURLY (txt "%}")]; Node BODY [Node HTML_TEXT [Leaf TK_LINE_BREAK (txt "
"); Leaf TK_WHITESPACE (txt "    "); Leaf TK_WORD (txt "Everything"); Leaf TK_WHITESPACE (txt " "); Leaf TK_WORD (txt "will"); Leaf TK_WHITESPACE (txt " "); Leaf TK_WORD (txt "be"); Leaf TK_WHITESPACE (txt " "); Leaf TK_WORD (txt "outputted"); Leaf TK_WHITESPACE (txt " "); Leaf TK_AS (txt "as"); Leaf TK_WHITESPACE (txt " "); Leaf TK_IS (txt "is"); Leaf TK_WHITESPACE (txt " "); Leaf TK_IN (txt "in"); Leaf TK_WHITESPACE (txt " "); Leaf TK_WORD (txt "this"); Leaf TK_WHITESPACE (txt " "); Leaf TK_BLOCK (txt "block")]]; Node TWIG_AUTOESCAPE_ENDING_BLOCK [Leaf TK_LINE_BREAK (txt "
"); Leaf TK_CURLY_PERCENT (txt "{%"); Leaf TK_WHITESPACE (txt " "); Leaf TK_ENDAUTOESCAPE (txt "endautoescape"); Leaf TK_WHITESPACE (txt " "); Leaf TK_PERCENT_CURLY (txt "%}")]]],
   []).

(** grammar/twig/tags.rs:3957 *)
Definition t_tags_3957 : ptest :=
  (txt "{% autoescape my_var %}
    Everything will be automatically escaped in this block
    using the js escaping strategy
{% endautoescape %}",
   Node ROOT [Node TWIG_AUTOESCAPE [Node TWIG_AUTOESCAPE_STARTING_BLOCK [Leaf TK_CURLY_PERCENT (txt "{%"); Leaf TK_WHITESPACE (txt " "); Leaf TK_AUTOESCAPE (txt "autoescape"); Node ERROR [Leaf TK_WHITESPACE (txt " "); Leaf TK_WORD (txt "my_var")]; Leaf TK_WHITESPACE (txt " "); Leaf TK_PERCENT_CURLY (txt "%}")]; Node BODY [Node HTML_TEXT [Leaf TK_LINE_BREAK (txt "
"); Leaf TK_WHITESPACE (txt "    "); Leaf TK_WORD (txt "Everything"); Leaf TK_WHITESPACE (txt " "); Leaf TK_WORD (txt "will"); Leaf TK_WHITESPACE (txt " "); Leaf TK_WORD (txt "be"); Leaf TK_WHITESPACE (txt " "); Leaf TK_WORD (txt "automatically"); Leaf TK_WHITESPACE (txt " "); Leaf TK_WORD (txt "escaped"); Leaf TK_WHITESPACE (txt " "); Leaf TK_IN (txt "in"); Leaf TK_WHITESPACE (txt " "); Leaf TK_WORD (txt "this"); Leaf TK_WHITESPACE (txt " "); Leaf TK_BLOCK (txt "block"); Leaf TK_LINE_BREAK (txt "
"); Leaf TK_WHITESPACE (txt "    "); Leaf TK_WORD (txt "using"); Leaf TK_WHITESPACE (txt " "); Leaf TK_WORD (txt "the"); Leaf TK_WHITESPACE (txt " "); Leaf TK_WORD (txt "js"); Leaf TK_WHITESPACE (txt " "); Leaf TK_WORD (txt "escaping"); Leaf TK_WHITESPACE (txt " "); Leaf TK_WORD (txt "strategy")]]; Node TWIG_AUTOESCAPE_ENDING_BLOCK [Leaf TK_LINE_BREAK (txt "
"); Leaf TK_CURLY_PERCENT (txt "{%"); Leaf TK_WHITESPACE (txt " "); Leaf TK_ENDAUTOESCAPE (txt "endautoescape"); Leaf TK_WHITESPACE (txt " "); Leaf TK_PERCENT_CURLY (txt "%}")]]],
   [txt "error at 14..20: expected twig escape strategy as string or 'false' but found word"]).

(** grammar/twig/tags.rs:4017 *)
Definition t_tags_4017 : ptest :=
  (txt "{% deprecated 'The ""base.twig"" template is deprecated, use ""layout.twig"" instead.' %}",
   Node ROOT [Node TWIG_DEPRECATED [Leaf TK_CURLY_PERCENT (txt "{%"); Leaf TK_WHITESPACE (txt " "); Leaf TK_DEPRECATED (txt "deprecated"); Node TWIG_LITERAL_STRING [Leaf TK_WHITESPACE (txt " "); Leaf TK_SINGLE_QUOTES (txt "'"); Node TWIG_LITERAL_STRING_INNER [Leaf TK_WORD (txt "The"); Leaf TK_WHITESPACE (txt " "); Leaf TK_DOUBLE_QUOTES (txt """"); Leaf TK_WORD (txt "base"); Leaf TK_DOT (txt "."); Leaf TK_WORD (txt "twig"); Leaf TK_DOUBLE_QUOTES (txt """"); Leaf TK_WHITESPACE (txt " "); Leaf TK_WORD (txt "template"); Leaf TK_WHITESPACE (txt " "); Leaf TK_IS (txt "is"); Leaf TK_WHITESPACE (txt " "); Leaf TK_DEPRECATED (txt "deprecated"); Leaf TK_COMMA (txt ","); Leaf TK_WHITESPACE (txt " "); Leaf TK_USE (txt "use"); Leaf TK_WHITESPACE (txt " "); Leaf TK_DOUBLE_QUOTES (txt """"); Leaf TK_WORD (txt "layout"); Leaf TK_DOT (txt "."); Leaf TK_WORD (txt "twig"); Leaf TK_DOUBLE_QUOTES (txt """"); Leaf TK_WHITESPACE (txt " "); Leaf TK_WORD (txt "instead"); Leaf TK_DOT (txt ".")]; Leaf TK_SINGLE_QUOTES (txt "'")]; Leaf TK_WHITESPACE (txt " "); Leaf TK_PERCENT_CURLY (txt "%}")]],
   []).

(** grammar/twig/tags.rs:4062 *)
Definition t_tags_4062 : ptest :=
  (txt "{% deprecated %}",
   Node ROOT [Node TWIG_DEPRECATED [Leaf TK_CURLY_PERCENT (txt "{%"); Leaf TK_WHITESPACE (txt " "); Leaf TK_DEPRECATED (txt "deprecated"); Leaf TK_WHITESPACE (txt " "); Leaf TK_PERCENT_CURLY (txt "%}")]],
   [txt "error at 14..16: expected twig deprecation message as string but found %}"]).

(** grammar/twig/tags.rs:4078 *)
Definition t_tags_4078 : ptest :=
  (txt "{% do 1 + 2 %}",
   Node ROOT [Node TWIG_DO [Leaf TK_CURLY_PERCENT (txt "{%"); Leaf TK_WHITESPACE (txt " "); Leaf TK_DO (txt "do"); Node TWIG_EXPRESSION [Node TWIG_BINARY_EXPRESSION [Node TWIG_EXPRESSION [Node TWIG_LITERAL_NUMBER [Leaf TK_WHITESPACE (txt " "); Leaf TK_NUMBER (txt "1")]]; Leaf TK_WHITESPACE (txt " "); Leaf TK_PLUS (txt "+"); Node TWIG_EXPRESSION [Node TWIG_LITERAL_NUMBER [Leaf TK_WHITESPACE (txt " "); Leaf TK_NUMBER (txt "2")]]]]; Leaf TK_WHITESPACE (txt " "); Leaf TK_PERCENT_CURLY (txt "%}")]],
   []).

(** grammar/twig/tags.rs:4105 *)
Definition t_tags_4105 : ptest :=
  (txt "{% do %}",
   Node ROOT [Node TWIG_DO [Leaf TK_CURLY_PERCENT (txt "{%"); Leaf TK_WHITESPACE (txt " "); Leaf TK_DO (txt "do"); Leaf TK_WHITESPACE (txt " "); Leaf TK_PERCENT_CURLY (txt "%}")]],
   [txt "error at 6..8: expected twig expression but found %}"]).

(** grammar/twig/tags.rs:4121 *)
Definition t_tags_4121 : ptest :=
  (txt "{% embed ""base"" with {'foo': 'bar'} %}
    ...
{% endembed %}",
   Node ROOT [Node TWIG_EMBED [Node TWIG_EMBED_STARTING_BLOCK [Leaf TK_CURLY_PERCENT (txt "{%"); Leaf TK_WHITESPACE (txt " "); Leaf TK_EMBED (txt "embed"); Node TWIG_EXPRESSION [Node TWIG_LITERAL_STRING [Leaf TK_WHITESPACE (txt " "); Leaf TK_DOUBLE_QUOTES (txt """"); Node TWIG_LITERAL_STRING_INNER [Leaf TK_WORD (txt "base")]; Leaf TK_DOUBLE_QUOTES (txt """")]]; Node TWIG_INCLUDE_WITH [Leaf TK_WHITESPACE (txt " "); Leaf TK_WITH (txt "with"); Node TWIG_EXPRESSION [Node TWIG_LITERAL_HASH [Leaf TK_WHITESPACE (txt " "); Leaf TK_OPEN_CURLY (txt "{"); Node TWIG_LITERAL_HASH_ITEMS [Node TWIG_LITERAL_HASH_PAIR [Node TWIG_LITERAL_HASH_KEY [Node TWIG_LITERAL_STRING [Leaf TK_SINGLE_QUOTES (txt "'"); Node TWIG_LITERAL_STRING_INNER [Leaf TK_WORD (txt "foo")]; Leaf TK_SINGLE_QUOTES (txt "'")]]; Leaf TK_COLON (txt ":"); Node TWIG_EXPRESSION [Node TWIG_LITERAL_STRING [Leaf TK_WHITESPACE (txt " "); Leaf TK_SINGLE_QUOTES (txt "'"); Node TWIG_LITERAL_STRING_INNER [Leaf TK_WORD (txt "bar")]; Leaf TK_SINGLE_QUOTES (txt "'")]]]]; Leaf TK_CLOSE_CURLY (txt "}")]]]; Leaf TK_WHITESPACE (txt " "); Leaf TK_PERCENT_CURLY (txt "%}")]; Node BODY [Node HTML_TEXT [Leaf TK_LINE_BREAK (txt "
"); Leaf TK_WHITESPACE (txt "    "); Leaf TK_TRIPLE_DOT (txt "...")]]; Node TWIG_EMBED_ENDING_BLOCK [Leaf TK_LINE_BREAK (txt "
"); Leaf TK_CURLY_PERCENT (txt "{%"); Leaf TK_WHITESPACE (txt " "); Leaf TK_ENDEMBED (txt "endembed"); Leaf TK_WHITESPACE (txt " "); Leaf TK_PERCENT_CURLY (txt "%}")]]],
   []).

(** grammar/twig/tags.rs:4182 *)
Definition t_tags_4182 : ptest :=
  (txt "{% embed ""base"" with {'foo': 'bar'} only %}
    ...
{% endembed %}",
   Node ROOT [Node TWIG_EMBED [Node TWIG_EMBED_STARTING_BLOCK [Leaf TK_CURLY_PERCENT (txt "{%"); Leaf TK_WHITESPACE (txt " "); Leaf TK_EMBED (txt "embed"); Node TWIG_EXPRESSION [Node TWIG_LITERAL_STRING [Leaf TK_WHITESPACE (txt " "); Leaf TK_DOUBLE_QUOTES (txt """"); Node TWIG_LITERAL_STRING_INNER [Leaf TK_WORD (txt "base")]; Leaf TK_DOUBLE_QUOTES (txt """")]]; Node TWIG_INCLUDE_WITH [Leaf TK_WHITESPACE (txt " "); Leaf TK_WITH (txt "with"); Node TWIG_EXPRESSION [Node TWIG_LITERAL_HASH [Leaf TK_WHITESPACE (txt " "); Leaf TK_OPEN_CURLY (txt "{"); Node TWIG_LITERAL_HASH_ITEMS [Node TWIG_LITERAL_HASH_PAIR [Node TWIG_LITERAL_HASH_KEY [Node TWIG_LITERAL_STRING [Leaf TK_SINGLE_QUOTES (txt "'"); Node TWIG_LITERAL_STRING_INNER [Leaf TK_WORD (txt "foo")]; Leaf TK_SINGLE_QUOTES (txt "'")]]; Leaf TK_COLON (txt ":"); Node TWIG_EXPRESSION [Node TWIG_LITERAL_STRING [Leaf TK_WHITESPACE (txt " "); Leaf TK_SINGLE_QUOTES (txt "'"); Node TWIG_LITERAL_STRING_INNER [Leaf TK_WORD (txt "bar")]; Leaf TK_SINGLE_QUOTES (txt "'")]]]]; Leaf TK_CLOSE_CURLY (txt "}")]]]; Leaf TK_WHITESPACE (txt " "); Leaf TK_ONLY (txt "only"); Leaf TK_WHITESPACE (txt " "); Leaf TK_PERCENT_CURLY (txt "%}")]; Node BODY [Node HTML_TEXT [Leaf TK_LINE_BREAK (txt "
"); Leaf TK_WHITESPACE (txt "    "); Leaf TK_TRIPLE_DOT (txt "...")]]; Node TWIG_EMBED_ENDING_BLOCK [Leaf TK_LINE_BREAK (txt "
"); Leaf TK_CURLY_PERCENT (txt "{%"); Leaf TK_WHITESPACE (txt " "); Leaf TK_ENDEMBED (txt "endembed"); Leaf TK_WHITESPACE (txt " "); Leaf TK_PERCENT_CURLY (txt "%}")]]],
   []).

(** grammar/twig/tags.rs:4245 *)
Definition t_tags_4245 : ptest :=
  (txt "{% embed ""base"" ignore missing %}
    ...
{% endembed %}",
   Node ROOT [Node TWIG_EMBED [Node TWIG_EMBED_STARTING_BLOCK [Leaf TK_CURLY_PERCENT (txt "{%"); Leaf TK_WHITESPACE (txt " "); Leaf TK_EMBED (txt "embed"); Node TWIG_EXPRESSION [Node TWIG_LITERAL_STRING [Leaf TK_WHITESPACE (txt " "); Leaf TK_DOUBLE_QUOTES (txt """"); Node TWIG_LITERAL_STRING_INNER [Leaf TK_WORD (txt "base")]; Leaf TK_DOUBLE_QUOTES (txt """")]]; Leaf TK_WHITESPACE (txt " "); Leaf TK_IGNORE_MISSING (txt "ignore missing"); Leaf TK_WHITESPACE (txt " "); Leaf TK_PERCENT_CURLY (txt "%}")]; Node BODY [Node HTML_TEXT [Leaf TK_LINE_BREAK (txt "
"); Leaf TK_WHITESPACE (txt "    "); Leaf TK_TRIPLE_DOT (txt "...")]]; Node TWIG_EMBED_ENDING_BLOCK [Leaf TK_LINE_BREAK (txt "
"); Leaf TK_CURLY_PERCENT (txt "{%"); Leaf TK_WHITESPACE (txt " "); Leaf TK_ENDEMBED (txt "endembed"); Leaf TK_WHITESPACE (txt " "); Leaf TK_PERCENT_CURLY (txt "%}")]]],
   []).

(** grammar/twig/tags.rs:4284 *)
Definition t_tags_4284 : ptest :=
  (txt "{% flush %}",
   Node ROOT [Node TWIG_FLUSH [Leaf TK_CURLY_PERCENT (txt "{%"); Leaf TK_WHITESPACE (txt " "); Leaf TK_FLUSH (txt "flush"); Leaf TK_WHITESPACE (txt " "); Leaf TK_PERCENT_CURLY (txt "%}")]],
   []).

(** grammar/twig/tags.rs:4299 *)
Definition t_tags_4299 : ptest :=
  (txt "{% from 'forms.html' import input as input_field, textarea %}",
   Node ROOT [Node TWIG_FROM [Leaf TK_CURLY_PERCENT (txt "{%"); Leaf TK_WHITESPACE (txt " "); Leaf TK_FROM (txt "from"); Node TWIG_EXPRESSION [Node TWIG_LITERAL_STRING [Leaf TK_WHITESPACE (txt " "); Leaf TK_SINGLE_QUOTES (txt "'"); Node TWIG_LITERAL_STRING_INNER [Leaf TK_WORD (txt "forms"); Leaf TK_DOT (txt "."); Leaf TK_WORD (txt "html")]; Leaf TK_SINGLE_QUOTES (txt "'")]]; Leaf TK_WHITESPACE (txt " "); Leaf TK_IMPORT (txt "import"); Node TWIG_OVERRIDE [Node TWIG_LITERAL_NAME [Leaf TK_WHITESPACE (txt " "); Leaf TK_WORD (txt "input")]; Leaf TK_WHITESPACE (txt " "); Leaf TK_AS (txt "as"); Node TWIG_LITERAL_NAME [Leaf TK_WHITESPACE (txt " "); Leaf TK_WORD (txt "input_field")]]; Leaf TK_COMMA (txt ","); Node TWIG_OVERRIDE [Node TWIG_LITERAL_NAME [Leaf TK_WHITESPACE (txt " "); Leaf TK_WORD (txt "textarea")]]; Leaf TK_WHITESPACE (txt " "); Leaf TK_PERCENT_CURLY (txt "%}")]],
   []).

(** grammar/twig/tags.rs:4339 *)
Definition t_tags_4339 : ptest :=
  (txt "{% from my_var|trim import input as input_field, textarea %}",
   Node ROOT [Node TWIG_FROM [Leaf TK_CURLY_PERCENT (txt "{%"); Leaf TK_WHITESPACE (txt " "); Leaf TK_FROM (txt "from"); Node TWIG_EXPRESSION [Node TWIG_FILTER [Node TWIG_OPERAND [Node TWIG_LITERAL_NAME [Leaf TK_WHITESPACE (txt " "); Leaf TK_WORD (txt "my_var")]]; Leaf TK_SINGLE_PIPE (txt "|"); Node TWIG_OPERAND [Node TWIG_LITERAL_NAME [Leaf TK_WORD (txt "trim")]]]]; Leaf TK_WHITESPACE (txt " "); Leaf TK_IMPORT (txt "import"); Node TWIG_OVERRIDE [Node TWIG_LITERAL_NAME [Leaf TK_WHITESPACE (txt " "); Leaf TK_WORD (txt "input")]; Leaf TK_WHITESPACE (txt " "); Leaf TK_AS (txt "as"); Node TWIG_LITERAL_NAME [Leaf TK_WHITESPACE (txt " "); Leaf TK_WORD (txt "input_field")]]; Leaf TK_COMMA (txt ","); Node TWIG_OVERRIDE [Node TWIG_LITERAL_NAME [Leaf TK_WHITESPACE (txt " "); Leaf TK_WORD (txt "textarea")]]; Leaf TK_WHITESPACE (txt " "); Leaf TK_PERCENT_CURLY (txt "%}")]],
   []).

(** grammar/twig/tags.rs:4380 *)
Definition t_tags_4380 : ptest :=
  (txt "{% from 'forms.html' import %}",
   Node ROOT [Node TWIG_FROM [Leaf TK_CURLY_PERCENT (txt "{%"); Leaf TK_WHITESPACE (txt " "); Leaf TK_FROM (txt "from"); Node TWIG_EXPRESSION [Node TWIG_LITERAL_STRING [Leaf TK_WHITESPACE (txt " "); Leaf TK_SINGLE_QUOTES (txt "'"); Node TWIG_LITERAL_STRING_INNER [Leaf TK_WORD (txt "forms"); Leaf TK_DOT (txt "."); Leaf TK_WORD (txt "html")]; Leaf TK_SINGLE_QUOTES (txt "'")]]; Leaf TK_WHITESPACE (txt " "); Leaf TK_IMPORT (txt "import"); Leaf TK_WHITESPACE (txt " "); Leaf TK_PERCENT_CURLY (txt "%}")]],
   [txt "error at 28..30: expected at least one macro name as macro name but found %}"]).

(** grammar/twig/tags.rs:4407 *)
Definition t_tags_4407 : ptest :=
  (txt "{% from 'forms.html' %}",
   Node ROOT [Node TWIG_FROM [Leaf TK_CURLY_PERCENT (txt "{%"); Leaf TK_WHITESPACE (txt " "); Leaf TK_FROM (txt "from"); Node TWIG_EXPRESSION [Node TWIG_LITERAL_STRING [Leaf TK_WHITESPACE (txt " "); Leaf TK_SINGLE_QUOTES (txt "'"); Node TWIG_LITERAL_STRING_INNER [Leaf TK_WORD (txt "forms"); Leaf TK_DOT (txt "."); Leaf TK_WORD (txt "html")]; Leaf TK_SINGLE_QUOTES (txt "'")]]; Leaf TK_WHITESPACE (txt " "); Leaf TK_PERCENT_CURLY (txt "%}")]],
   [txt "error at 21..23: expected import or sw_import but found %}"; txt "error at 21..23: expected at least one macro name as macro name but found %}"]).

(** grammar/twig/tags.rs:4433 *)
Definition t_tags_4433 : ptest :=
  (txt "{% import ""forms.html"" as forms %}",
   Node ROOT [Node TWIG_IMPORT [Leaf TK_CURLY_PERCENT (txt "{%"); Leaf TK_WHITESPACE (txt " "); Leaf TK_IMPORT (txt "import"); Node TWIG_EXPRESSION [Node TWIG_LITERAL_STRING [Leaf TK_WHITESPACE (txt " "); Leaf TK_DOUBLE_QUOTES (txt """"); Node TWIG_LITERAL_STRING_INNER [Leaf TK_WORD (txt "forms"); Leaf TK_DOT (txt "."); Leaf TK_WORD (txt "html")]; Leaf TK_DOUBLE_QUOTES (txt """")]]; Leaf TK_WHITESPACE (txt " "); Leaf TK_AS (txt "as"); Node TWIG_LITERAL_NAME [Leaf TK_WHITESPACE (txt " "); Leaf TK_WORD (txt "forms")]; Leaf TK_WHITESPACE (txt " "); Leaf TK_PERCENT_CURLY (txt "%}")]],
   []).

(** grammar/twig/tags.rs:4462 *)
Definition t_tags_4462 : ptest :=
  (txt "{% import my_var|trim as forms %}",
   Node ROOT [Node TWIG_IMPORT [Leaf TK_CURLY_PERCENT (txt "{%"); Leaf TK_WHITESPACE (txt " "); Leaf TK_IMPORT (txt "import"); Node TWIG_EXPRESSION [Node TWIG_FILTER [Node TWIG_OPERAND [Node TWIG_LITERAL_NAME [Leaf TK_WHITESPACE (txt " "); Leaf TK_WORD (txt "my_var")]]; Leaf TK_SINGLE_PIPE (txt "|"); Node TWIG_OPERAND [Node TWIG_LITERAL_NAME [Leaf TK_WORD (txt "trim")]]]]; Leaf TK_WHITESPACE (txt " "); Leaf TK_AS (txt "as"); Node TWIG_LITERAL_NAME [Leaf TK_WHITESPACE (txt " "); Leaf TK_WORD (txt "forms")]; Leaf TK_WHITESPACE (txt " "); Leaf TK_PERCENT_CURLY (txt "%}")]],
   []).

(** grammar/twig/tags.rs:4492 *)
Definition t_tags_4492 : ptest :=
  (txt "{% import ""forms.html"" as %}",
   Node ROOT [Node TWIG_IMPORT [Leaf TK_CURLY_PERCENT (txt "{%"); Leaf TK_WHITESPACE (txt " "); Leaf TK_IMPORT (txt "import"); Node TWIG_EXPRESSION [Node TWIG_LITERAL_STRING [Leaf TK_WHITESPACE (txt " "); Leaf TK_DOUBLE_QUOTES (txt """"); Node TWIG_LITERAL_STRING_INNER [Leaf TK_WORD (txt "forms"); Leaf TK_DOT (txt "."); Leaf TK_WORD (txt "html")]; Leaf TK_DOUBLE_QUOTES (txt """")]]; Leaf TK_WHITESPACE (txt " "); Leaf TK_AS (txt "as"); Leaf TK_WHITESPACE (txt " "); Leaf TK_PERCENT_CURLY (txt "%}")]],
   [txt "error at 26..28: expected name for twig macro but found %}"]).

(** grammar/twig/tags.rs:4519 *)
Definition t_tags_4519 : ptest :=
  (txt "{% import ""forms.html"" %}",
   Node ROOT [Node TWIG_IMPORT [Leaf TK_CURLY_PERCENT (txt "{%"); Leaf TK_WHITESPACE (txt " "); Leaf TK_IMPORT (txt "import"); Node TWIG_EXPRESSION [Node TWIG_LITERAL_STRING [Leaf TK_WHITESPACE (txt " "); Leaf TK_DOUBLE_QUOTES (txt """"); Node TWIG_LITERAL_STRING_INNER [Leaf TK_WORD (txt "forms"); Leaf TK_DOT (txt "."); Leaf TK_WORD (txt "html")]; Leaf TK_DOUBLE_QUOTES (txt """")]]; Leaf TK_WHITESPACE (txt " "); Leaf TK_PERCENT_CURLY (txt "%}")]],
   [txt "error at 23..25: expected as but found %}"; txt "error at 23..25: expected name for twig macro but found %}"]).

(** grammar/twig/tags.rs:4545 *)
Definition t_tags_4545 : ptest :=
  (txt "{% sandbox %}
    {% include 'user.html' %}
{% endsandbox %}",
   Node ROOT [Node TWIG_SANDBOX [Node TWIG_SANDBOX_STARTING_BLOCK [Leaf TK_CURLY_PERCENT (txt "{%"); Leaf TK_WHITESPACE (txt " "); Leaf TK_SANDBOX (txt "sandbox"); Leaf TK_WHITESPACE (txt " "); Leaf TK_PERCENT_CURLY (txt "%}")]; Node BODY [Node TWIG_INCLUDE [Leaf TK_LINE_BREAK (txt "
"); Leaf TK_WHITESPACE (txt "    "); Leaf TK_CURLY_PERCENT (txt "{%"); Leaf TK_WHITESPACE (txt " "); Leaf TK_INCLUDE (txt "include"); Node TWIG_EXPRESSION [Node TWIG_LITERAL_STRING [Leaf TK_WHITESPACE (txt " "); Leaf TK_SINGLE_QUOTES (txt "'"); Node TWIG_LITERAL_STRING_INNER [Leaf TK_WORD (txt "user"); Leaf TK_DOT (txt "."); Leaf TK_WORD (txt "html")]; Leaf TK_SINGLE_QUOTES (txt "'")]]; Leaf TK_WHITESPACE (txt " "); Leaf TK_PERCENT_CURLY (txt "%}")]]; Node TWIG_SANDBOX_ENDING_BLOCK [Leaf TK_LINE_BREAK (txt "
"); Leaf TK_CURLY_PERCENT (txt "{%"); Leaf TK_WHITESPACE (txt " "); Leaf TK_ENDSANDBOX (txt "endsandbox"); Leaf TK_WHITESPACE (txt " "); Leaf TK_PERCENT_CURLY (txt "%}")]]],
   []).

(** grammar/twig/tags.rs:4588 *)
Definition t_tags_4588 : ptest :=
  (txt "{% verbatim %}
    <ul>
    {% for item in seq %}
        <li>{{ item }}</li>
    {% endfor %}
    </ul>
{% endverbatim %}",
   Node ROOT [Node TWIG_VERBATIM [Node TWIG_VERBATIM_STARTING_BLOCK [Leaf TK_CURLY_PERCENT (txt "{%"); Leaf TK_WHITESPACE (txt " "); Leaf TK_VERBATIM (txt "verbatim"); Leaf TK_WHITESPACE (txt " "); Leaf TK_PERCENT_CURLY (txt "%}")]; Node BODY [Node HTML_TAG [Node HTML_STARTING_TAG [Leaf TK_LINE_BREAK (txt "
"); Leaf TK_WHITESPACE (txt "    "); Leaf TK_LESS_THAN (txt "<"); Leaf TK_WORD (txt "ul"); Node HTML_ATTRIBUTE_LIST []; Leaf TK_GREATER_THAN (txt ">")]; Node BODY [Node TWIG_FOR [Node TWIG_FOR_BLOCK [Leaf TK_LINE_BREAK (txt "
"); Leaf TK_WHITESPACE (txt "    "); Leaf TK_CURLY_PERCENT (txt "{%"); Leaf TK_WHITESPACE (txt " "); Leaf TK_FOR (txt "for"); Node TWIG_LITERAL_NAME [Leaf TK_WHITESPACE (txt " "); Leaf TK_WORD (txt "item")]; Leaf TK_WHITESPACE (txt " "); Leaf TK_IN (txt "in"); Node TWIG_EXPRESSION [Node TWIG_LITERAL_NAME [Leaf TK_WHITESPACE (txt " "); Leaf TK_WORD (txt "seq")]]; Leaf TK_WHITESPACE (txt " "); Leaf TK_PERCENT_CURLY (txt "%}")]; Node BODY [Node HTML_TAG [Node HTML_STARTING_TAG [Leaf TK_LINE_BREAK (txt "
"); Leaf TK_WHITESPACE (txt "        "); Leaf TK_LESS_THAN (txt "<"); Leaf TK_WORD (txt "li"); Node HTML_ATTRIBUTE_LIST []; Leaf TK_GREATER_THAN (txt ">")]; Node BODY [Node TWIG_VAR [Leaf TK_OPEN_CURLY_CURLY (txt "{{"); Node TWIG_EXPRESSION [Node TWIG_LITERAL_NAME [Leaf TK_WHITESPACE (txt " "); Leaf TK_WORD (txt "item")]]; Leaf TK_WHITESPACE (txt " "); Leaf TK_CLOSE_CURLY_CURLY (txt "}}")]]; Node HTML_ENDING_TAG [Leaf TK_LESS_THAN_SLASH (txt "</"); Leaf TK_WORD (txt "li"); Leaf TK_GREATER_THAN (txt ">")]]]; Node TWIG_ENDFOR_BLOCK [Leaf TK_LINE_BREAK (txt "
"); Leaf TK_WHITESPACE (txt "    "); Leaf TK_CURLY_PERCENT (txt "{%"); Leaf TK_WHITESPACE (txt " "); Leaf TK_ENDFOR (txt "endfor"); Leaf TK_WHITESPACE (txt " "); Leaf TK_PERCENT_CURLY (txt "%}")]]]; Node HTML_ENDING_TAG [Leaf TK_LINE_BREAK (txt "
"); Leaf TK_WHITESPACE (txt "    "); Leaf TK_LESS_THAN_SLASH (txt "</"); Leaf TK_WORD (txt "ul"); Leaf TK_GREATER_THAN (txt ">")]]]; Node TWIG_VERBATIM_ENDING_BLOCK [Leaf TK_LINE_BREAK (txt "
"); Leaf TK_CURLY_PERCENT (txt "{%"); Leaf TK_WHITESPACE (txt " "); Leaf TK_ENDVERBATIM (txt "endverbatim"); Leaf TK_WHITESPACE (txt " "); Leaf TK_PERCENT_CURLY (txt "%}")]]],
   []).

(** grammar/twig/tags.rs:4682 *)
Definition t_tags_4682 : ptest :=
  (txt "{% macro input(name, value, type = ""text"", size = 20) %}
    <input type=""{{ type }}"" name=""{{ name }}"" value=""{{ value|e }}"" size=""{{ size }}""/>
{% endmacro %}",
   Node ROOT [Node TWIG_MACRO [Node TWIG_MACRO_STARTING_BLOCK [Leaf TK_CURLY_PERCENT (txt "{%"); Leaf TK_WHITESPACE (txt " "); Leaf TK_MACRO (txt "macro"); Leaf TK_WHITESPACE (txt " "); Leaf TK_WORD (txt "input"); Node TWIG_ARGUMENTS [Leaf TK_OPEN_PARENTHESIS (txt "("); Node TWIG_EXPRESSION [Node TWIG_LITERAL_NAME [Leaf TK_WORD (txt "name")]]; Leaf TK_COMMA (txt ","); Node TWIG_EXPRESSION [Node TWIG_LITERAL_NAME [Leaf TK_WHITESPACE (txt " "); Leaf TK_WORD (txt "value")]]; Leaf TK_COMMA (txt ","); Node TWIG_NAMED_ARGUMENT [Leaf TK_WHITESPACE (txt " "); Leaf TK_WORD (txt "type"); Leaf TK_WHITESPACE (txt " "); Leaf TK_EQUAL (txt "="); Node TWIG_EXPRESSION [Node TWIG_LITERAL_STRING [Leaf TK_WHITESPACE (txt " "); Leaf TK_DOUBLE_QUOTES (txt """"); Node TWIG_LITERAL_STRING_INNER [Leaf TK_WORD (txt "text")]; Leaf TK_DOUBLE_QUOTES (txt """")]]]; Leaf TK_COMMA (txt ","); Node TWIG_NAMED_ARGUMENT [Leaf TK_WHITESPACE (txt " "); Leaf TK_WORD (txt "size"); Leaf TK_WHITESPACE (txt " "); Leaf TK_EQUAL (txt "="); Node TWIG_EXPRESSION [Node TWIG_LITERAL_NUMBER [Leaf TK_WHITESPACE (txt " "); Leaf TK_NUMBER (txt "20")]]]; Leaf TK_CLOSE_PARENTHESIS (txt ")")]; Leaf TK_WHITESPACE (txt " "); Leaf TK_PERCENT_CURLY (txt "%}")]; Node BODY [Node HTML_TAG [Node HTML_STARTING_TAG [Leaf TK_LINE_BREAK (txt "
"); Leaf TK_WHITESPACE (txt "    "); Leaf TK_LESS_THAN (txt "<"); Leaf TK_WORD (txt "input"); Node HTML_ATTRIBUTE_LIST [Node HTML_ATTRIBUTE [Leaf TK_WHITESPACE (txt " "); Leaf TK_WORD (txt "type"); Leaf TK_EQUAL (txt "="); Node HTML_STRING [Leaf TK_DOUBLE_QUOTES (txt """"); Node HTML_STRING_INNER [Node TWIG_VAR [Leaf TK_OPEN_CURLY_CURLY (txt "{{"); Node TWIG_EXPRESSION [Node TWIG_LITERAL_NAME [Leaf TK_WHITESPACE (txt " "); Leaf TK_WORD (txt "type")]]; Leaf TK_WHITESPACE (txt " "); Leaf TK_CLOSE_CURLY_CURLY (txt "}}")]]; Leaf TK_DOUBLE_QUOTES (txt """")]]; Node HTML_ATTRIBUTE [Leaf TK_WHITESPACE (txt " "); Leaf TK_WORD (txt "name"); Leaf TK_EQUAL (txt "="); Node HTML_STRING [Leaf TK_DOUBLE_QUOTES (txt """"); Node HTML_STRING_INNER [Node TWIG_VAR [Leaf TK_OPEN_CURLY_CURLY (txt "{{"); Node TWIG_EXPRESSION [Node TWIG_LITERAL_NAME [Leaf TK_WHITESPACE (txt " "); Leaf TK_WORD (txt "name")]]; Leaf TK_WHITESPACE (txt " "); Leaf TK_CLOSE_CURLY_CURLY (txt "}}")]]; Leaf TK_DOUBLE_QUOTES (txt """")]]; Node HTML_ATTRIBUTE [Leaf TK_WHITESPACE (txt " "); Leaf TK_WORD (txt "value"); Leaf TK_EQUAL (txt "="); Node HTML_STRING [Leaf TK_DOUBLE_QUOTES (txt """"); Node HTML_STRING_INNER [Node TWIG_VAR [Leaf TK_OPEN_CURLY_CURLY (txt "{{"); Node TWIG_EXPRESSION [Node TWIG_FILTER [Node TWIG_OPERAND [Node TWIG_LITERAL_NAME [Leaf TK_WHITESPACE (txt " "); Leaf TK_WORD (txt "value")]]; Leaf TK_SINGLE_PIPE (txt "|"); Node TWIG_OPERAND [Node TWIG_LITERAL_NAME [Leaf TK_WORD (txt "e")]]]]; Leaf TK_WHITESPACE (txt " "); Leaf TK_CLOSE_CURLY_CURLY (txt "}}")]]; Leaf TK_DOUBLE_QUOTES (txt """")]]; Node HTML_ATTRIBUTE [Leaf TK_WHITESPACE (txt " "); Leaf TK_WORD (txt "size"); Leaf TK_EQUAL (txt "="); Node HTML_STRING [Leaf TK_DOUBLE_QUOTES (txt """"); Node HTML_STRING_INNER [Node TWIG_VAR [Leaf TK_OPEN_CURLY_CURLY (txt "{{"); Node TWIG_EXPRESSION [Node TWIG_LITERAL_NAME [Leaf TK_WHITESPACE (txt " "); Leaf TK_WORD (txt "size")]]; Leaf TK_WHITESPACE (txt " "); Leaf TK_CLOSE_CURLY_CURLY (txt "}}")]]; Leaf TK_DOUBLE_QUOTES (txt """")]]]; Leaf TK_SLASH_GREATER_THAN (txt "/>")]]]; Node TWIG_MACRO_ENDING_BLOCK [Leaf TK_LINE_BREAK (txt "
"); Leaf TK_CURLY_PERCENT (txt "{%"); Leaf TK_WHITESPACE (txt " "); Leaf TK_ENDMACRO (txt "endmacro"); Leaf TK_WHITESPACE (txt " "); Leaf TK_PERCENT_CURLY (txt "%}")]]],
   []).

(** grammar/twig/tags.rs:4822 *)
Definition t_tags_4822 : ptest :=
  (txt "{% macro input() %}
    ...
{% endmacro input %}",
   Node ROOT [Node TWIG_MACRO [Node TWIG_MACRO_STARTING_BLOCK [Leaf TK_CURLY_PERCENT (txt "{%"); Leaf TK_WHITESPACE (txt " "); Leaf TK_MACRO (txt "macro"); Leaf TK_WHITESPACE (txt " "); Leaf TK_WORD (txt "input"); Node TWIG_ARGUMENTS [Leaf TK_OPEN_PARENTHESIS (txt "("); Leaf TK_CLOSE_PARENTHESIS (txt ")")]; Leaf TK_WHITESPACE (txt " "); Leaf TK_PERCENT_CURLY (txt "%}")]; Node BODY [Node HTML_TEXT [Leaf TK_LINE_BREAK (txt "
"); Leaf TK_WHITESPACE (txt "    "); Leaf TK_TRIPLE_DOT (txt "...")]]; Node TWIG_MACRO_ENDING_BLOCK [Leaf TK_LINE_BREAK (txt "
"); Leaf TK_CURLY_PERCENT (txt "{%"); Leaf TK_WHITESPACE (txt " "); Leaf TK_ENDMACRO (txt "endmacro"); Leaf TK_WHITESPACE (txt " "); Leaf TK_WORD (txt "input"); Leaf TK_WHITESPACE (txt " "); Leaf TK_PERCENT_CURLY (txt "%}")]]],
   []).

(** grammar/twig/tags.rs:4859 *)
Definition t_tags_4859 : ptest :=
  (txt "{% macro input() %}
    ...
{% endmacro inp %}",
   Node ROOT [Node TWIG_MACRO [Node TWIG_MACRO_STARTING_BLOCK [Leaf TK_CURLY_PERCENT (txt "{%"); Leaf TK_WHITESPACE (txt " "); Leaf TK_MACRO (txt "macro"); Leaf TK_WHITESPACE (txt " "); Leaf TK_WORD (txt "input"); Node TWIG_ARGUMENTS [Leaf TK_OPEN_PARENTHESIS (txt "("); Leaf TK_CLOSE_PARENTHESIS (txt ")")]; Leaf TK_WHITESPACE (txt " "); Leaf TK_PERCENT_CURLY (txt "%}")]; Node BODY [Node HTML_TEXT [Leaf TK_LINE_BREAK (txt "
"); Leaf TK_WHITESPACE (txt "    "); Leaf TK_TRIPLE_DOT (txt "...")]]; Node TWIG_MACRO_ENDING_BLOCK [Leaf TK_LINE_BREAK (txt "
"); Leaf TK_CURLY_PERCENT (txt "{%"); Leaf TK_WHITESPACE (txt " "); Leaf TK_ENDMACRO (txt "endmacro"); Leaf TK_WHITESPACE (txt " "); Leaf TK_WORD (txt "inp"); Leaf TK_WHITESPACE (txt " "); Leaf TK_PERCENT_CURLY (txt "%}")]]],
   [txt "error at 40..43: expected nothing or same twig macro name as opening (input) but found word"]).

(** grammar/twig/tags.rs:4897 *)
Definition t_tags_4897 : ptest :=
  (txt "{% macro input %}
    ...
{% endmacro input %}",
   Node ROOT [Node TWIG_MACRO [Node TWIG_MACRO_STARTING_BLOCK [Leaf TK_CURLY_PERCENT (txt "{%"); Leaf TK_WHITESPACE (txt " "); Leaf TK_MACRO (txt "macro"); Leaf TK_WHITESPACE (txt " "); Leaf TK_WORD (txt "input"); Node TWIG_ARGUMENTS []; Leaf TK_WHITESPACE (txt " "); Leaf TK_PERCENT_CURLY (txt "%}")]; Node BODY [Node HTML_TEXT [Leaf TK_LINE_BREAK (txt "
"); Leaf TK_WHITESPACE (txt "    "); Leaf TK_TRIPLE_DOT (txt "...")]]; Node TWIG_MACRO_ENDING_BLOCK [Leaf TK_LINE_BREAK (txt "
"); Leaf TK_CURLY_PERCENT (txt "{%"); Leaf TK_WHITESPACE (txt " "); Leaf TK_ENDMACRO (txt "endmacro"); Leaf TK_WHITESPACE (txt " "); Leaf TK_WORD (txt "input"); Leaf TK_WHITESPACE (txt " "); Leaf TK_PERCENT_CURLY (txt "%}")]]],
   [txt "error at 15..17: expected ( but found %}"; txt "error at 15..17: expected ) but found %}"]).

(** grammar/twig/tags.rs:4934 *)
Definition t_tags_4934 : ptest :=
  (txt "{% with %}
    {% set foo = 42 %}
    {{ foo }} {# foo is 42 here #}
{% endwith %}",
   Node ROOT [Node TWIG_WITH [Node TWIG_WITH_STARTING_BLOCK [Leaf TK_CURLY_PERCENT (txt "{%"); Leaf TK_WHITESPACE (txt " "); Leaf TK_WITH (txt "with"); Leaf TK_WHITESPACE (txt " "); Leaf TK_PERCENT_CURLY (txt "%}")]; Node BODY [Node TWIG_SET [Node TWIG_SET_BLOCK [Leaf TK_LINE_BREAK (txt "
"); Leaf TK_WHITESPACE (txt "    "); Leaf TK_CURLY_PERCENT (txt "{%"); Leaf TK_WHITESPACE (txt " "); Leaf TK_SET (txt "set"); Node TWIG_ASSIGNMENT [Node TWIG_LITERAL_NAME [Leaf TK_WHITESPACE (txt " "); Leaf TK_WORD (txt "foo")]; Leaf TK_WHITESPACE (txt " "); Leaf TK_EQUAL (txt "="); Node TWIG_EXPRESSION [Node TWIG_LITERAL_NUMBER [Leaf TK_WHITESPACE (txt " "); Leaf TK_NUMBER (txt "42")]]]; Leaf TK_WHITESPACE (txt " "); Leaf TK_PERCENT_CURLY (txt "%}")]]; Node TWIG_VAR [Leaf TK_LINE_BREAK (txt "
"); Leaf TK_WHITESPACE (txt "    "); Leaf TK_OPEN_CURLY_CURLY (txt "{{"); Node TWIG_EXPRESSION [Node TWIG_LITERAL_NAME [Leaf TK_WHITESPACE (txt " "); Leaf TK_WORD (txt "foo")]]; Leaf TK_WHITESPACE (txt " "); Leaf TK_CLOSE_CURLY_CURLY (txt "}}")]; Node TWIG_COMMENT [Leaf TK_WHITESPACE (txt " "); Leaf TK_OPEN_CURLY_HASHTAG (txt "{#"); Leaf TK_WHITESPACE (txt " "); Leaf TK_WORD (txt "foo"); Leaf TK_WHITESPACE (txt " "); Leaf TK_IS (txt "is"); Leaf TK_WHITESPACE (txt " "); Leaf TK_NUMBER (txt "42"); Leaf TK_WHITESPACE (txt " "); Leaf TK_WORD (txt "here"); Leaf TK_WHITESPACE (txt " "); Leaf TK_HASHTAG_CLOSE_CURLY (txt "#}")]]; Node TWIG_WITH_ENDING_BLOCK [Leaf TK_LINE_BREAK (txt "
"); Leaf TK_CURLY_PERCENT (txt "{%"); Leaf TK_WHITESPACE (txt " "); Leaf TK_ENDWITH (txt "endwith"); Leaf TK_WHITESPACE (txt " "); Leaf TK_PERCENT_CURLY (txt "%}")]]],
   []).

(** grammar/twig/tags.rs:5003 *)
Definition t_tags_5003 : ptest :=
  (txt "{% with { foo: 42 } %}
    {{ foo }} {# foo is 42 here #}
{% endwith %}",
   Node ROOT [Node TWIG_WITH [Node TWIG_WITH_STARTING_BLOCK [Leaf TK_CURLY_PERCENT (txt "{%"); Leaf TK_WHITESPACE (txt " "); Leaf TK_WITH (txt "with"); Node TWIG_EXPRESSION [Node TWIG_LITERAL_HASH [Leaf TK_WHITESPACE (txt " "); Leaf TK_OPEN_CURLY (txt "{"); Node TWIG_LITERAL_HASH_ITEMS [Node TWIG_LITERAL_HASH_PAIR [Node TWIG_LITERAL_HASH_KEY [Leaf TK_WHITESPACE (txt " "); Leaf TK_WORD (txt "foo")]; Leaf TK_COLON (txt ":"); Node TWIG_EXPRESSION [Node TWIG_LITERAL_NUMBER [Leaf TK_WHITESPACE (txt " "); Leaf TK_NUMBER (txt "42")]]]]; Leaf TK_WHITESPACE (txt " "); Leaf TK_CLOSE_CURLY (txt "}")]]; Leaf TK_WHITESPACE (txt " "); Leaf TK_PERCENT_CURLY (txt "%}")]; Node BODY [Node TWIG_VAR [Leaf TK_LINE_BREAK (txt "
"); Leaf TK_WHITESPACE (txt "    "); Leaf TK_OPEN_CURLY_CURLY (txt "{{"); Node TWIG_EXPRESSION [Node TWIG_LITERAL_NAME [Leaf TK_WHITESPACE (txt " "); Leaf TK_WORD (txt "foo")]]; Leaf TK_WHITESPACE (txt " "); Leaf TK_CLOSE_CURLY_CURLY (txt "}}")]; Node TWIG_COMMENT [Leaf TK_WHITESPACE (txt " "); Leaf TK_OPEN_CURLY_HASHTAG (txt "{#"); Leaf TK_WHITESPACE (txt " "); Leaf TK_WORD (txt "foo"); Leaf TK_WHITESPACE (txt " "); Leaf TK_IS (txt "is"); Leaf TK_WHITESPACE (txt " "); Leaf TK_NUMBER (txt "42"); Leaf TK_WHITESPACE (txt " "); Leaf TK_WORD (txt "here"); Leaf TK_WHITESPACE (txt " "); Leaf TK_HASHTAG_CLOSE_CURLY (txt "#}")]]; Node TWIG_WITH_ENDING_BLOCK [Leaf TK_LINE_BREAK (txt "
"); Leaf TK_CURLY_PERCENT (txt "{%"); Leaf TK_WHITESPACE (txt " "); Leaf TK_ENDWITH (txt "endwith"); Leaf TK_WHITESPACE (txt " "); Leaf TK_PERCENT_CURLY (txt "%}")]]],
   []).

(** grammar/twig/tags.rs:5068 *)
Definition t_tags_5068 : ptest :=
  (txt "{% set vars = { foo: 42 } %}
{% with vars %}
    ...
{% endwith %}",
   Node ROOT [Node TWIG_SET [Node TWIG_SET_BLOCK [Leaf TK_CURLY_PERCENT (txt "{%"); Leaf TK_WHITESPACE (txt " "); Leaf TK_SET (txt "set"); Node TWIG_ASSIGNMENT [Node TWIG_LITERAL_NAME [Leaf TK_WHITESPACE (txt " "); Leaf TK_WORD (txt "vars")]; Leaf TK_WHITESPACE (txt " "); Leaf TK_EQUAL (txt "="); Node TWIG_EXPRESSION [Node TWIG_LITERAL_HASH [Leaf TK_WHITESPACE (txt " "); Leaf TK_OPEN_CURLY (txt "{"); Node TWIG_LITERAL_HASH_ITEMS [Node TWIG_LITERAL_HASH_PAIR [Node TWIG_LITERAL_HASH_KEY [Leaf TK_WHITESPACE (txt " "); Leaf TK_WORD (txt "foo")]; Leaf TK_COLON (txt ":"); Node TWIG_EXPRESSION [Node TWIG_LITERAL_NUMBER [Leaf TK_WHITESPACE (txt " "); Leaf TK_NUMBER (txt "42")]]]]; Leaf TK_WHITESPACE (txt " "); Leaf TK_CLOSE_CURLY (txt "}")]]]; Leaf TK_WHITESPACE (txt " "); Leaf TK_PERCENT_CURLY (txt "%}")]]; Node TWIG_WITH [Node TWIG_WITH_STARTING_BLOCK [Leaf TK_LINE_BREAK (txt "
"); Leaf TK_CURLY_PERCENT (txt "{%"); Leaf TK_WHITESPACE (txt " "); Leaf TK_WITH (txt "with"); Node TWIG_EXPRESSION [Node TWIG_LITERAL_NAME [Leaf TK_WHITESPACE (txt " "); Leaf TK_WORD (txt "vars")]]; Leaf TK_WHITESPACE (txt " "); Leaf TK_PERCENT_CURLY (txt "%}")]; Node BODY [Node HTML_TEXT [Leaf TK_LINE_BREAK (txt "
"); Leaf TK_WHITESPACE (txt "    "); Leaf TK_TRIPLE_DOT (txt "...")]]; Node TWIG_WITH_ENDING_BLOCK [Leaf TK_LINE_BREAK (txt "
"); Leaf TK_CURLY_PERCENT (txt "{%"); Leaf TK_WHITESPACE (txt " "); Leaf TK_ENDWITH (txt "endwith"); Leaf TK_WHITESPACE (txt " "); Leaf TK_PERCENT_CURLY (txt "%}")]]],
   []).

(** grammar/twig/tags.rs:5133 *)
Definition t_tags_5133 : ptest :=
  (txt "{% set bar = 'bar' %}
{% with { foo: 42 } only %}
    {# only foo is defined #}
    {# bar is not defined #}
{% endwith %}",
   Node ROOT [Node TWIG_SET [Node TWIG_SET_BLOCK [Leaf TK_CURLY_PERCENT (txt "{%"); Leaf TK_WHITESPACE (txt " "); Leaf TK_SET (txt "set"); Node TWIG_ASSIGNMENT [Node TWIG_LITERAL_NAME [Leaf TK_WHITESPACE (txt " "); Leaf TK_WORD (txt "bar")]; Leaf TK_WHITESPACE (txt " "); Leaf TK_EQUAL (txt "="); Node TWIG_EXPRESSION [Node TWIG_LITERAL_STRING [Leaf TK_WHITESPACE (txt " "); Leaf TK_SINGLE_QUOTES (txt "'"); Node TWIG_LITERAL_STRING_INNER [Leaf TK_WORD (txt "bar")]; Leaf TK_SINGLE_QUOTES (txt "'")]]]; Leaf TK_WHITESPACE (txt " "); Leaf TK_PERCENT_CURLY (txt "%}")]]; Node TWIG_WITH [Node TWIG_WITH_STARTING_BLOCK [Leaf TK_LINE_BREAK (txt "
"); Leaf TK_CURLY_PERCENT (txt "{%"); Leaf TK_WHITESPACE (txt " "); Leaf TK_WITH (txt "with"); Node TWIG_EXPRESSION [Node TWIG_LITERAL_HASH [Leaf TK_WHITESPACE (txt " "); Leaf TK_OPEN_CURLY (txt "{"); Node TWIG_LITERAL_HASH_ITEMS [Node TWIG_LITERAL_HASH_PAIR [Node TWIG_LITERAL_HASH_KEY [Leaf TK_WHITESPACE (txt " "); Leaf TK_WORD (txt "foo")]; Leaf TK_COLON (txt ":"); Node TWIG_EXPRESSION [Node TWIG_LITERAL_NUMBER [Leaf TK_WHITESPACE (txt " "); Leaf TK_NUMBER (txt "42")]]]]; Leaf TK_WHITESPACE (txt " "); Leaf TK_CLOSE_CURLY (txt "}")]]; Leaf TK_WHITESPACE (txt " "); Leaf TK_ONLY (txt "only"); Leaf TK_WHITESPACE (txt " "); Leaf TK_PERCENT_CURLY (txt "%}")]; Node BODY [Node TWIG_COMMENT [Leaf TK_LINE_BREAK (txt "
"); Leaf TK_WHITESPACE (txt "    "); Leaf TK_OPEN_CURLY_HASHTAG (txt "{#"); Leaf TK_WHITESPACE (txt " "); Leaf TK_ONLY (txt "only"); Leaf TK_WHITESPACE (txt " "); Leaf TK_WORD (txt "foo"); Leaf TK_WHITESPACE (txt " "); Leaf TK_IS (txt "is"); Leaf TK_WHITESPACE (txt " "); Leaf TK_DEFINED (txt "defined"); Leaf TK_WHITESPACE (txt " "); Leaf TK_HASHTAG_CLOSE_CURLY (txt "#}")]; Node TWIG_COMMENT [Leaf TK_LINE_BREAK (txt "
"); Leaf TK_WHITESPACE (txt "    "); Leaf TK_OPEN_CURLY_HASHTAG (txt "{#"); Leaf TK_WHITESPACE (txt " "); Leaf TK_WORD (txt "bar"); Leaf TK_WHITESPACE (txt " "); Leaf TK_IS_NOT (txt "is not"); Leaf TK_WHITESPACE (txt " "); Leaf TK_DEFINED (txt "defined"); Leaf TK_WHITESPACE (txt " "); Leaf TK_HASHTAG_CLOSE_CURLY (txt "#}")]]; Node TWIG_WITH_ENDING_BLOCK [Leaf TK_LINE_BREAK (txt "
"); Leaf TK_CURLY_PERCENT (txt "{%"); Leaf TK_WHITESPACE (txt " "); Leaf TK_ENDWITH (txt "endwith"); Leaf TK_WHITESPACE (txt " "); Leaf TK_PERCENT_CURLY (txt "%}")]]],
   []).

(** grammar/twig/tags.rs:5226 *)
Definition t_tags_5226 : ptest :=
  (txt "{% cache ""cache key"" %}
    Cached forever (depending on the cache implementation)
{% endcache %}",
   Node ROOT [Node TWIG_CACHE [Node TWIG_CACHE_STARTING_BLOCK [Leaf TK_CURLY_PERCENT (txt "{%"); Leaf TK_WHITESPACE (txt " "); Leaf TK_CACHE (txt "cache"); Node TWIG_EXPRESSION [Node TWIG_LITERAL_STRING [Leaf TK_WHITESPACE (txt " "); Leaf TK_DOUBLE_QUOTES (txt """"); Node TWIG_LITERAL_STRING_INNER [Leaf TK_CACHE (txt "cache"); Leaf TK_WHITESPACE (txt " "); Leaf TK_WORD (txt "key")]; Leaf TK_DOUBLE_QUOTES (txt """")]]; Leaf TK_WHITESPACE (txt " "); Leaf TK_PERCENT_CURLY (txt "%}")]; Node BODY [Node HTML_TEXT [Leaf TK_LINE_BREAK (txt "
"); Leaf TK_WHITESPACE (txt "    "); Leaf TK_WORD (txt "Cached"); Leaf TK_WHITESPACE (txt " "); Leaf TK_WORD (txt "forever"); Leaf TK_WHITESPACE (txt " "); Leaf TK_OPEN_PARENTHESIS (txt "("); Leaf TK_WORD (txt "depending"); Leaf TK_WHITESPACE (txt " "); Leaf TK_WORD (txt "on"); Leaf TK_WHITESPACE (txt " "); Leaf TK_WORD (txt "the"); Leaf TK_WHITESPACE (txt " "); Leaf TK_CACHE (txt "cache"); Leaf TK_WHITESPACE (txt " "); Leaf TK_WORD (txt "implementation"); Leaf TK_CLOSE_PARENTHESIS (txt ")")]]; Node TWIG_CACHE_ENDING_BLOCK [Leaf TK_LINE_BREAK (txt "
"); Leaf TK_CURLY_PERCENT (txt "{%"); Leaf TK_WHITESPACE (txt " "); Leaf TK_ENDCACHE (txt "endcache"); Leaf TK_WHITESPACE (txt " "); Leaf TK_PERCENT_CURLY (txt "%}")]]],
   []).

(** grammar/twig/tags.rs:5279 *)
Definition t_tags_5279 : ptest :=
  (txt "{% cache ""cache key"" ttl(300) %}
    Cached for 300 seconds
{% endcache %}",
   Node ROOT [Node TWIG_CACHE [Node TWIG_CACHE_STARTING_BLOCK [Leaf TK_CURLY_PERCENT (txt "{%"); Leaf TK_WHITESPACE (txt " "); Leaf TK_CACHE (txt "cache"); Node TWIG_EXPRESSION [Node TWIG_LITERAL_STRING [Leaf TK_WHITESPACE (txt " "); Leaf TK_DOUBLE_QUOTES (txt """"); Node TWIG_LITERAL_STRING_INNER [Leaf TK_CACHE (txt "cache"); Leaf TK_WHITESPACE (txt " "); Leaf TK_WORD (txt "key")]; Leaf TK_DOUBLE_QUOTES (txt """")]]; Node TWIG_CACHE_TTL [Leaf TK_WHITESPACE (txt " "); Leaf TK_TTL (txt "ttl"); Leaf TK_OPEN_PARENTHESIS (txt "("); Node TWIG_EXPRESSION [Node TWIG_LITERAL_NUMBER [Leaf TK_NUMBER (txt "300")]]; Leaf TK_CLOSE_PARENTHESIS (txt ")")]; Leaf TK_WHITESPACE (txt " "); Leaf TK_PERCENT_CURLY (txt "%}")]; Node BODY [Node HTML_TEXT [Leaf TK_LINE_BREAK (txt "
"); Leaf TK_WHITESPACE (txt "    "); Leaf TK_WORD (txt "Cached"); Leaf TK_WHITESPACE (txt " "); Leaf TK_FOR (txt "for"); Leaf TK_WHITESPACE (txt " "); Leaf TK_NUMBER (txt "300"); Leaf TK_WHITESPACE (txt " "); Leaf TK_WORD (txt "seconds")]]; Node TWIG_CACHE_ENDING_BLOCK [Leaf TK_LINE_BREAK (txt "
"); Leaf TK_CURLY_PERCENT (txt "{%"); Leaf TK_WHITESPACE (txt " "); Leaf TK_ENDCACHE (txt "endcache"); Leaf TK_WHITESPACE (txt " "); Leaf TK_PERCENT_CURLY (txt "%}")]]],
   []).

(** grammar/twig/tags.rs:5332 *)
Definition t_tags_5332 : ptest :=
  (txt "{% cache ""cache key"" tags(['cms', 'blog']) %}
    Some code
{% endcache %}",
   Node ROOT [Node TWIG_CACHE [Node TWIG_CACHE_STARTING_BLOCK [Leaf TK_CURLY_PERCENT (txt "{%"); Leaf TK_WHITESPACE (txt " "); Leaf TK_CACHE (txt "cache"); Node TWIG_EXPRESSION [Node TWIG_LITERAL_STRING [Leaf TK_WHITESPACE (txt " "); Leaf TK_DOUBLE_QUOTES (txt """"); Node TWIG_LITERAL_STRING_INNER [Leaf TK_CACHE (txt "cache"); Leaf TK_WHITESPACE (txt " "); Leaf TK_WORD (txt "key")]; Leaf TK_DOUBLE_QUOTES (txt """")]]; Node TWIG_CACHE_TAGS [Leaf TK_WHITESPACE (txt " "); Leaf TK_TAGS (txt "tags"); Leaf TK_OPEN_PARENTHESIS (txt "("); Node TWIG_EXPRESSION [Node TWIG_LITERAL_ARRAY [Leaf TK_OPEN_SQUARE (txt "["); Node TWIG_LITERAL_ARRAY_INNER [Node TWIG_EXPRESSION [Node TWIG_LITERAL_STRING [Leaf TK_SINGLE_QUOTES (txt "'"); Node TWIG_LITERAL_STRING_INNER [Leaf TK_WORD (txt "cms")]; Leaf TK_SINGLE_QUOTES (txt "'")]]; Leaf TK_COMMA (txt ","); Node TWIG_EXPRESSION [Node TWIG_LITERAL_STRING [Leaf TK_WHITESPACE (txt " "); Leaf TK_SINGLE_QUOTES (txt "'"); Node TWIG_LITERAL_STRING_INNER [Leaf TK_WORD (txt "blog")]; Leaf TK_SINGLE_QUOTES (txt "'")]]]; Leaf TK_CLOSE_SQUARE (txt "]")]]; Leaf TK_CLOSE_PARENTHESIS (txt ")")]; Leaf TK_WHITESPACE (txt " "); Leaf TK_PERCENT_CURLY (txt "%}")]; Node BODY [Node HTML_TEXT [Leaf TK_LINE_BREAK (txt "
"); Leaf TK_WHITESPACE (txt "    "); Leaf TK_WORD (txt "Some"); Leaf TK_WHITESPACE (txt " "); Leaf TK_WORD (txt "code")]]; Node TWIG_CACHE_ENDING_BLOCK [Leaf TK_LINE_BREAK (txt "
"); Leaf TK_CURLY_PERCENT (txt "{%"); Leaf TK_WHITESPACE (txt " "); Leaf TK_ENDCACHE (txt "endcache"); Leaf TK_WHITESPACE (txt " "); Leaf TK_PERCENT_CURLY (txt "%}")]]],
   []).

(** grammar/twig/tags.rs:5397 *)
Definition t_tags_5397 : ptest :=
  (txt "{% cache ""cache key"" ttl(5) tags(['cms', 'blog']) %}
    Some code
{% endcache %}",
   Node ROOT [Node TWIG_CACHE [Node TWIG_CACHE_STARTING_BLOCK [Leaf TK_CURLY_PERCENT (txt "{%"); Leaf TK_WHITESPACE (txt " "); Leaf TK_CACHE (txt "cache"); Node TWIG_EXPRESSION [Node TWIG_LITERAL_STRING [Leaf TK_WHITESPACE (txt " "); Leaf TK_DOUBLE_QUOTES (txt """"); Node TWIG_LITERAL_STRING_INNER [Leaf TK_CACHE (txt "cache"); Leaf TK_WHITESPACE (txt " "); Leaf TK_WORD (txt "key")]; Leaf TK_DOUBLE_QUOTES (txt """")]]; Node TWIG_CACHE_TTL [Leaf TK_WHITESPACE (txt " "); Leaf TK_TTL (txt "ttl"); Leaf TK_OPEN_PARENTHESIS (txt "("); Node TWIG_EXPRESSION [Node TWIG_LITERAL_NUMBER [Leaf TK_NUMBER (txt "5")]]; Leaf TK_CLOSE_PARENTHESIS (txt ")")]; Node TWIG_CACHE_TAGS [Leaf TK_WHITESPACE (txt " "); Leaf TK_TAGS (txt "tags"); Leaf TK_OPEN_PARENTHESIS (txt "("); Node TWIG_EXPRESSION [Node TWIG_LITERAL_ARRAY [Leaf TK_OPEN_SQUARE (txt "["); Node TWIG_LITERAL_ARRAY_INNER [Node TWIG_EXPRESSION [Node TWIG_LITERAL_STRING [Leaf TK_SINGLE_QUOTES (txt "'"); Node TWIG_LITERAL_STRING_INNER [Leaf TK_WORD (txt "cms")]; Leaf TK_SINGLE_QUOTES (txt "'")]]; Leaf TK_COMMA (txt ","); Node TWIG_EXPRESSION [Node TWIG_LITERAL_STRING [Leaf TK_WHITESPACE (txt " "); Leaf TK_SINGLE_QUOTES (txt "'"); Node TWIG_LITERAL_STRING_INNER [Leaf TK_WORD (txt "blog")]; Leaf TK_SINGLE_QUOTES (txt "'")]]]; Leaf TK_CLOSE_SQUARE (txt "]")]]; Leaf TK_CLOSE_PARENTHESIS (txt ")")]; Leaf TK_WHITESPACE (txt " "); Leaf TK_PERCENT_CURLY (txt "%}")]; Node BODY [Node HTML_TEXT [Leaf TK_LINE_BREAK (txt "
"); Leaf TK_WHITESPACE (txt "    "); Leaf TK_WORD (txt "Some"); Leaf TK_WHITESPACE (txt " "); Leaf TK_WORD (txt "code")]]; Node TWIG_CACHE_ENDING_BLOCK [Leaf TK_LINE_BREAK (txt "
"); Leaf TK_CURLY_PERCENT (txt "{%"); Leaf TK_WHITESPACE (txt " "); Leaf TK_ENDCACHE (txt "endcache"); Leaf TK_WHITESPACE (txt " "); Leaf TK_PERCENT_CURLY (txt "%}")]]],
   []).

(** grammar/twig/tags.rs:5470 *)
Definition t_tags_5470 : ptest :=
  (txt "{% cache ""blog_post;v1;"" ~ post.id ~ "";"" ~ post.updated_at %}
    Some code
{% endcache %}",
   Node ROOT [Node TWIG_CACHE [Node TWIG_CACHE_STARTING_BLOCK [Leaf TK_CURLY_PERCENT (txt "{%"); Leaf TK_WHITESPACE (txt " "); Leaf TK_CACHE (txt "cache"); Node TWIG_EXPRESSION [Node TWIG_BINARY_EXPRESSION [Node TWIG_BINARY_EXPRESSION [Node TWIG_BINARY_EXPRESSION [Node TWIG_EXPRESSION [Node TWIG_LITERAL_STRING [Leaf TK_WHITESPACE (txt " "); Leaf TK_DOUBLE_QUOTES (txt """"); Node TWIG_LITERAL_STRING_INNER [Leaf TK_WORD (txt "blog_post"); Leaf TK_SEMICOLON (txt ";"); Leaf TK_WORD (txt "v1"); Leaf TK_SEMICOLON (txt ";")]; Leaf TK_DOUBLE_QUOTES (txt """")]]; Leaf TK_WHITESPACE (txt " "); Leaf TK_TILDE (txt "~"); Node TWIG_EXPRESSION [Node TWIG_ACCESSOR [Node TWIG_OPERAND [Node TWIG_LITERAL_NAME [Leaf TK_WHITESPACE (txt " "); Leaf TK_WORD (txt "post")]]; Leaf TK_DOT (txt "."); Node TWIG_OPERAND [Node TWIG_LITERAL_NAME [Leaf TK_WORD (txt "id")]]]]]; Leaf TK_WHITESPACE (txt " "); Leaf TK_TILDE (txt "~"); Node TWIG_EXPRESSION [Node TWIG_LITERAL_STRING [Leaf TK_WHITESPACE (txt " "); Leaf TK_DOUBLE_QUOTES (txt """"); Node TWIG_LITERAL_STRING_INNER [Leaf TK_SEMICOLON (txt ";")]; Leaf TK_DOUBLE_QUOTES (txt """")]]]; Leaf TK_WHITESPACE (txt " "); Leaf TK_TILDE (txt "~"); Node TWIG_EXPRESSION [Node TWIG_ACCESSOR [Node TWIG_OPERAND [Node TWIG_LITERAL_NAME [Leaf TK_WHITESPACE (txt " "); Leaf TK_WORD (txt "post")]]; Leaf TK_DOT (txt "."); Node TWIG_OPERAND [Node TWIG_LITERAL_NAME [Leaf TK_WORD (txt "updated_at")]]]]]]; Leaf TK_WHITESPACE (txt " "); Leaf TK_PERCENT_CURLY (txt "%}")]; Node BODY [Node HTML_TEXT [Leaf TK_LINE_BREAK (txt "
"); Leaf TK_WHITESPACE (txt "    "); Leaf TK_WORD (txt "Some"); Leaf TK_WHITESPACE (txt " "); Leaf TK_WORD (txt "code")]]; Node TWIG_CACHE_ENDING_BLOCK [Leaf TK_LINE_BREAK (txt "
"); Leaf TK_CURLY_PERCENT (txt "{%"); Leaf TK_WHITESPACE (txt " "); Leaf TK_ENDCACHE (txt "endcache"); Leaf TK_WHITESPACE (txt " "); Leaf TK_PERCENT_CURLY (txt "%}")]]],
   []).

(** grammar/twig/tags.rs:5549 *)
Definition t_tags_5549 : ptest :=
  (txt "{% cache %}
    Some code
{% endcache %}",
   Node ROOT [Node TWIG_CACHE [Node TWIG_CACHE_STARTING_BLOCK [Leaf TK_CURLY_PERCENT (txt "{%"); Leaf TK_WHITESPACE (txt " "); Leaf TK_CACHE (txt "cache"); Leaf TK_WHITESPACE (txt " "); Leaf TK_PERCENT_CURLY (txt "%}")]; Node BODY [Node HTML_TEXT [Leaf TK_LINE_BREAK (txt "
"); Leaf TK_WHITESPACE (txt "    "); Leaf TK_WORD (txt "Some"); Leaf TK_WHITESPACE (txt " "); Leaf TK_WORD (txt "code")]]; Node TWIG_CACHE_ENDING_BLOCK [Leaf TK_LINE_BREAK (txt "
"); Leaf TK_CURLY_PERCENT (txt "{%"); Leaf TK_WHITESPACE (txt " "); Leaf TK_ENDCACHE (txt "endcache"); Leaf TK_WHITESPACE (txt " "); Leaf TK_PERCENT_CURLY (txt "%}")]]],
   [txt "error at 9..11: expected twig expression as cache key but found %}"]).

(** grammar/twig/tags.rs:5582 *)
Definition t_tags_5582 : ptest :=
  (txt "{% trans %} hello world {% endtrans %}",
   Node ROOT [Node TWIG_TRANS [Node TWIG_TRANS_STARTING_BLOCK [Leaf TK_CURLY_PERCENT (txt "{%"); Leaf TK_WHITESPACE (txt " "); Leaf TK_TRANS (txt "trans"); Leaf TK_WHITESPACE (txt " "); Leaf TK_PERCENT_CURLY (txt "%}")]; Node BODY [Node HTML_TEXT [Leaf TK_WHITESPACE (txt " "); Leaf TK_WORD (txt "hello"); Leaf TK_WHITESPACE (txt " "); Leaf TK_WORD (txt "world")]]; Node TWIG_TRANS_ENDING_BLOCK [Leaf TK_WHITESPACE (txt " "); Leaf TK_CURLY_PERCENT (txt "{%"); Leaf TK_WHITESPACE (txt " "); Leaf TK_ENDTRANS (txt "endtrans"); Leaf TK_WHITESPACE (txt " "); Leaf TK_PERCENT_CURLY (txt "%}")]]],
   []).

(** grammar/twig/tags.rs:5611 *)
Definition t_tags_5611 : ptest :=
  (txt "{% props icon, type = 'primary' %}",
   Node ROOT [Node TWIG_PROPS [Leaf TK_CURLY_PERCENT (txt "{%"); Leaf TK_WHITESPACE (txt " "); Leaf TK_PROPS (txt "props"); Node TWIG_PROP_DECLARATION [Node TWIG_LITERAL_NAME [Leaf TK_WHITESPACE (txt " "); Leaf TK_WORD (txt "icon")]]; Leaf TK_COMMA (txt ","); Node TWIG_PROP_DECLARATION [Node TWIG_LITERAL_NAME [Leaf TK_WHITESPACE (txt " "); Leaf TK_WORD (txt "type")]; Leaf TK_WHITESPACE (txt " "); Leaf TK_EQUAL (txt "="); Node TWIG_EXPRESSION [Node TWIG_LITERAL_STRING [Leaf TK_WHITESPACE (txt " "); Leaf TK_SINGLE_QUOTES (txt "'"); Node TWIG_LITERAL_STRING_INNER [Leaf TK_WORD (txt "primary")]; Leaf TK_SINGLE_QUOTES (txt "'")]]]; Leaf TK_WHITESPACE (txt " "); Leaf TK_PERCENT_CURLY (txt "%}")]],
   []).

(** grammar/twig/tags.rs:5644 *)
Definition t_tags_5644 : ptest :=
  (txt "{% props icon = null, type = 'primary' %}

<button {{ attributes.defaults({class: 'btn btn-'~type}) }}>
    {% block content %}{% endblock %}
    {% if icon %}
        <span class=""fa-solid fa-{{ icon }}""></span>
    {% endif %}
</button>",
   Node ROOT [Node TWIG_PROPS [Leaf TK_CURLY_PERCENT (txt "{%"); Leaf TK_WHITESPACE (txt " "); Leaf TK_PROPS (txt "props"); Node TWIG_PROP_DECLARATION [Node TWIG_LITERAL_NAME [Leaf TK_WHITESPACE (txt " "); Leaf TK_WORD (txt "icon")]; Leaf TK_WHITESPACE (txt " "); Leaf TK_EQUAL (txt "="); Node TWIG_EXPRESSION [Node TWIG_LITERAL_NULL [Leaf TK_WHITESPACE (txt " "); Leaf TK_NULL (txt "null")]]]; Leaf TK_COMMA (txt ","); Node TWIG_PROP_DECLARATION [Node TWIG_LITERAL_NAME [Leaf TK_WHITESPACE (txt " "); Leaf TK_WORD (txt "type")]; Leaf TK_WHITESPACE (txt " "); Leaf TK_EQUAL (txt "="); Node TWIG_EXPRESSION [Node TWIG_LITERAL_STRING [Leaf TK_WHITESPACE (txt " "); Leaf TK_SINGLE_QUOTES (txt "'"); Node TWIG_LITERAL_STRING_INNER [Leaf TK_WORD (txt "primary")]; Leaf TK_SINGLE_QUOTES (txt "'")]]]; Leaf TK_WHITESPACE (txt " "); Leaf TK_PERCENT_CURLY (txt "%}")]; Node HTML_TAG [Node HTML_STARTING_TAG [Leaf TK_LINE_BREAK (txt "

"); Leaf TK_LESS_THAN (txt "<"); Leaf TK_WORD (txt "button"); Node HTML_ATTRIBUTE_LIST [Node HTML_ATTRIBUTE [Node TWIG_VAR [Leaf TK_WHITESPACE (txt " "); Leaf TK_OPEN_CURLY_CURLY (txt "{{"); Node TWIG_EXPRESSION [Node TWIG_FUNCTION_CALL [Node TWIG_OPERAND [Node TWIG_ACCESSOR [Node TWIG_OPERAND [Node TWIG_LITERAL_NAME [Leaf TK_WHITESPACE (txt " "); Leaf TK_WORD (txt "attributes")]]; Leaf TK_DOT (txt "."); Node TWIG_OPERAND [Node TWIG_LITERAL_NAME [Leaf TK_WORD (txt "defaults")]]]]; Node TWIG_ARGUMENTS [Leaf TK_OPEN_PARENTHESIS (txt "("); Node TWIG_EXPRESSION [Node TWIG_LITERAL_HASH [Leaf TK_OPEN_CURLY (txt "{"); Node TWIG_LITERAL_HASH_ITEMS [Node TWIG_LITERAL_HASH_PAIR [Node TWIG_LITERAL_HASH_KEY [Leaf TK_WORD (txt "class")]; Leaf TK_COLON (txt ":"); Node TWIG_EXPRESSION [Node TWIG_BINARY_EXPRESSION [Node TWIG_EXPRESSION [Node TWIG_LITERAL_STRING [Leaf TK_WHITESPACE (txt " "); Leaf TK_SINGLE_QUOTES (txt "'"); Node TWIG_LITERAL_STRING_INNER [Leaf TK_WORD (txt "btn"); Leaf TK_WHITESPACE (txt " "); Leaf TK_WORD (txt "btn-")]; Leaf TK_SINGLE_QUOTES (txt "'")]]; Leaf TK_TILDE (txt "~"); Node TWIG_EXPRESSION [Node TWIG_LITERAL_NAME [Leaf TK_WORD (txt "type")]]]]]]; Leaf TK_CLOSE_CURLY (txt "}")]]; Leaf TK_CLOSE_PARENTHESIS (txt ")")]]]; Leaf TK_WHITESPACE (txt " "); Leaf TK_CLOSE_CURLY_CURLY (txt "}}")]]]; Leaf TK_GREATER_THAN (txt ">")]; Node BODY [Node TWIG_BLOCK [Node TWIG_STARTING_BLOCK [Leaf TK_LINE_BREAK (txt "
"); Leaf TK_WHITESPACE (txt "    "); Leaf TK_CURLY_PERCENT (txt "{%"); Leaf TK_WHITESPACE (txt " "); Leaf TK_BLOCK (txt "block"); Leaf TK_WHITESPACE (txt " "); Leaf TK_WORD (txt "content"); Leaf TK_WHITESPACE (txt " "); Leaf TK_PERCENT_CURLY (txt "%}")]; Node BODY []; Node TWIG_ENDING_BLOCK [Leaf TK_CURLY_PERCENT (txt "{%"); Leaf TK_WHITESPACE (txt " "); Leaf TK_ENDBLOCK (txt "endblock"); Leaf TK_WHITESPACE (txt " "); Leaf TK_PERCENT_CURLY (txt "%}")]]; Node TWIG_IF [Node TWIG_IF_BLOCK [Leaf TK_LINE_BREAK (txt "
"); Leaf TK_WHITESPACE (txt "    "); Leaf TK_CURLY_PERCENT (txt "{%"); Leaf TK_WHITESPACE (txt " "); Leaf TK_IF (txt "if"); Node TWIG_EXPRESSION [Node TWIG_LITERAL_NAME [Leaf TK_WHITESPACE (txt " "); Leaf TK_WORD (txt "icon")]]; Leaf TK_WHITESPACE (txt " "); Leaf TK_PERCENT_CURLY (txt "%}")]; Node BODY [Node HTML_TAG [Node HTML_STARTING_TAG [Leaf TK_LINE_BREAK (txt "
"); Leaf TK_WHITESPACE (txt "        "); Leaf TK_LESS_THAN (txt "<"); Leaf TK_WORD (txt "span"); Node HTML_ATTRIBUTE_LIST [Node HTML_ATTRIBUTE [Leaf TK_WHITESPACE (txt " "); Leaf TK_WORD (txt "class"); Leaf TK_EQUAL (txt "="); Node HTML_STRING [Leaf TK_DOUBLE_QUOTES (txt """"); Node HTML_STRING_INNER [Leaf TK_WORD (txt "fa-solid"); Leaf TK_WHITESPACE (txt " "); Leaf TK_WORD (txt "fa-"); Node TWIG_VAR [Leaf TK_OPEN_CURLY_CURLY (txt "{{"); Node TWIG_EXPRESSION [Node TWIG_LITERAL_NAME [Leaf TK_WHITESPACE (txt " "); Leaf TK_WORD (txt "icon")]]; Leaf TK_WHITESPACE (txt " "); Leaf TK_CLOSE_CURLY_CURLY (txt "}}")]]; Leaf TK_DOUBLE_QUOTES (txt """")]]]; Leaf TK_GREATER_THAN (txt ">")]; Node BODY []; Node HTML_ENDING_TAG [Leaf TK_LESS_THAN_SLASH (txt "</"); Leaf TK_WORD (txt "span"); Leaf TK_GREATER_THAN (txt ">")]]]; Node TWIG_ENDIF_BLOCK [Leaf TK_LINE_BREAK (txt "
"); Leaf TK_WHITESPACE (txt "    "); Leaf TK_CURLY_PERCENT (txt "{%"); Leaf TK_WHITESPACE (txt " "); Leaf TK_ENDIF (txt "endif"); Leaf TK_WHITESPACE (txt " "); Leaf TK_PERCENT_CURLY (txt "%}")]]]; Node HTML_ENDING_TAG [Leaf TK_LINE_BREAK (txt "
"); Leaf TK_LESS_THAN_SLASH (txt "</"); Leaf TK_WORD (txt "button"); Leaf TK_GREATER_THAN (txt ">")]]],
   []).

(** grammar/twig/tags.rs:5820 *)
Definition t_tags_5820 : ptest :=
  (txt "{% component Alert with {type: 'success'} %}
    {% block content %}<div>Congrats!</div>{% endblock %}
    {% block footer %}... footer content{% endblock %}
{% endcomponent %}",
   Node ROOT [Node TWIG_COMPONENT [Node TWIG_COMPONENT_STARTING_BLOCK [Leaf TK_CURLY_PERCENT (txt "{%"); Leaf TK_WHITESPACE (txt " "); Leaf TK_COMPONENT (txt "component"); Node TWIG_LITERAL_NAME [Leaf TK_WHITESPACE (txt " "); Leaf TK_WORD (txt "Alert")]; Leaf TK_WHITESPACE (txt " "); Leaf TK_WITH (txt "with"); Node TWIG_LITERAL_HASH [Leaf TK_WHITESPACE (txt " "); Leaf TK_OPEN_CURLY (txt "{"); Node TWIG_LITERAL_HASH_ITEMS [Node TWIG_LITERAL_HASH_PAIR [Node TWIG_LITERAL_HASH_KEY [Leaf TK_WORD (txt "type")]; Leaf TK_COLON (txt ":"); Node TWIG_EXPRESSION [Node TWIG_LITERAL_STRING [Leaf TK_WHITESPACE (txt " "); Leaf TK_SINGLE_QUOTES (txt "'"); Node TWIG_LITERAL_STRING_INNER [Leaf TK_WORD (txt "success")]; Leaf TK_SINGLE_QUOTES (txt "'")]]]]; Leaf TK_CLOSE_CURLY (txt "}")]; Leaf TK_WHITESPACE (txt " "); Leaf TK_PERCENT_CURLY (txt "%}")]; Node BODY [Node TWIG_BLOCK [Node TWIG_STARTING_BLOCK [Leaf TK_LINE_BREAK (txt "
"); Leaf TK_WHITESPACE (txt "    "); Leaf TK_CURLY_PERCENT (txt "{%"); Leaf TK_WHITESPACE (txt " "); Leaf TK_BLOCK (txt "block"); Leaf TK_WHITESPACE (txt " "); Leaf TK_WORD (txt "content"); Leaf TK_WHITESPACE (txt " "); Leaf TK_PERCENT_CURLY (txt "%}")]; Node BODY [Node HTML_TAG [Node HTML_STARTING_TAG [Leaf TK_LESS_THAN (txt "<"); Leaf TK_WORD (txt "div"); Node HTML_ATTRIBUTE_LIST []; Leaf TK_GREATER_THAN (txt ">")]; Node BODY [Node HTML_TEXT [Leaf TK_WORD (txt "Congrats"); Leaf TK_EXCLAMATION_MARK (txt "!")]]; Node HTML_ENDING_TAG [Leaf TK_LESS_THAN_SLASH (txt "</"); Leaf TK_WORD (txt "div"); Leaf TK_GREATER_THAN (txt ">")]]]; Node TWIG_ENDING_BLOCK [Leaf TK_CURLY_PERCENT (txt "{%"); Leaf TK_WHITESPACE (txt " "); Leaf TK_ENDBLOCK (txt "endblock"); Leaf TK_WHITESPACE (txt " "); Leaf TK_PERCENT_CURLY (txt "%}")]]; Node TWIG_BLOCK [Node TWIG_STARTING_BLOCK [Leaf TK_LINE_BREAK (txt "
"); Leaf TK_WHITESPACE (txt "    "); Leaf TK_CURLY_PERCENT (txt "{%"); Leaf TK_WHITESPACE (txt " "); Leaf TK_BLOCK (txt "block"); Leaf TK_WHITESPACE (txt " "); Leaf TK_WORD (txt "footer"); Leaf TK_WHITESPACE (txt " "); Leaf TK_PERCENT_CURLY (txt "%}")]; Node BODY [Node HTML_TEXT [Leaf TK_TRIPLE_DOT (txt "..."); Leaf TK_WHITESPACE (txt " "); Leaf TK_WORD (txt "footer"); Leaf TK_WHITESPACE (txt " "); Leaf TK_WORD (txt "content")]]; Node TWIG_ENDING_BLOCK [Leaf TK_CURLY_PERCENT (txt "{%"); Leaf TK_WHITESPACE (txt " "); Leaf TK_ENDBLOCK (txt "endblock"); Leaf TK_WHITESPACE (txt " "); Leaf TK_PERCENT_CURLY (txt "%}")]]]; Node TWIG_COMPONENT_ENDING_BLOCK [Leaf TK_LINE_BREAK (txt "
"); Leaf TK_CURLY_PERCENT (txt "{%"); Leaf TK_WHITESPACE (txt " "); Leaf TK_ENDCOMPONENT (txt "endcomponent"); Leaf TK_WHITESPACE (txt " "); Leaf TK_PERCENT_CURLY (txt "%}")]]],
   []).

(** grammar/twig/tags.rs:5924 *)
Definition t_tags_5924 : ptest :=
  (txt "{% component Alert %}
    {% block content %}<div>Congrats!</div>{% endblock %}
    {% block footer %}... footer content{% endblock %}
{% endcomponent %}",
   Node ROOT [Node TWIG_COMPONENT [Node TWIG_COMPONENT_STARTING_BLOCK [Leaf TK_CURLY_PERCENT (txt "{%"); Leaf TK_WHITESPACE (txt " "); Leaf TK_COMPONENT (txt "component"); Node TWIG_LITERAL_NAME [Leaf TK_WHITESPACE (txt " "); Leaf TK_WORD (txt "Alert")]; Leaf TK_WHITESPACE (txt " "); Leaf TK_PERCENT_CURLY (txt "%}")]; Node BODY [Node TWIG_BLOCK [Node TWIG_STARTING_BLOCK [Leaf TK_LINE_BREAK (txt "
"); Leaf TK_WHITESPACE (txt "    "); Leaf TK_CURLY_PERCENT (txt "{%"); Leaf TK_WHITESPACE (txt " "); Leaf TK_BLOCK (txt "block"); Leaf TK_WHITESPACE (txt " "); Leaf TK_WORD (txt "content"); Leaf TK_WHITESPACE (txt " "); Leaf TK_PERCENT_CURLY (txt "%}")]; Node BODY [Node HTML_TAG [Node HTML_STARTING_TAG [Leaf TK_LESS_THAN (txt "<"); Leaf TK_WORD (txt "div"); Node HTML_ATTRIBUTE_LIST []; Leaf TK_GREATER_THAN (txt ">")]; Node BODY [Node HTML_TEXT [Leaf TK_WORD (txt "Congrats"); Leaf TK_EXCLAMATION_MARK (txt "!")]]; Node HTML_ENDING_TAG [Leaf TK_LESS_THAN_SLASH (txt "</"); Leaf TK_WORD (txt "div"); Leaf TK_GREATER_THAN (txt ">")]]]; Node TWIG_ENDING_BLOCK [Leaf TK_CURLY_PERCENT (txt "{%"); Leaf TK_WHITESPACE (txt " "); Leaf TK_ENDBLOCK (txt "endblock"); Leaf TK_WHITESPACE (txt " "); Leaf TK_PERCENT_CURLY (txt "%}")]]; Node TWIG_BLOCK [Node TWIG_STARTING_BLOCK [Leaf TK_LINE_BREAK (txt "
"); Leaf TK_WHITESPACE (txt "    "); Leaf TK_CURLY_PERCENT (txt "{%"); Leaf TK_WHITESPACE (txt " "); Leaf TK_BLOCK (txt "block"); Leaf TK_WHITESPACE (txt " "); Leaf TK_WORD (txt "footer"); Leaf TK_WHITESPACE (txt " "); Leaf TK_PERCENT_CURLY (txt "%}")]; Node BODY [Node HTML_TEXT [Leaf TK_TRIPLE_DOT (txt "..."); Leaf TK_WHITESPACE (txt " "); Leaf TK_WORD (txt "footer"); Leaf TK_WHITESPACE (txt " "); Leaf TK_WORD (txt "content")]]; Node TWIG_ENDING_BLOCK [Leaf TK_CURLY_PERCENT (txt "{%"); Leaf TK_WHITESPACE (txt " "); Leaf TK_ENDBLOCK (txt "endblock"); Leaf TK_WHITESPACE (txt " "); Leaf TK_PERCENT_CURLY (txt "%}")]]]; Node TWIG_COMPONENT_ENDING_BLOCK [Leaf TK_LINE_BREAK (txt "
"); Leaf TK_CURLY_PERCENT (txt "{%"); Leaf TK_WHITESPACE (txt " "); Leaf TK_ENDCOMPONENT (txt "endcomponent"); Leaf TK_WHITESPACE (txt " "); Leaf TK_PERCENT_CURLY (txt "%}")]]],
   []).

(** grammar/twig/tags.rs:6010 *)
Definition t_tags_6010 : ptest :=
  (txt "{% component %}
            <div>Congrats!</div>
{% endcomponent %}",
   Node ROOT [Node TWIG_COMPONENT [Node TWIG_COMPONENT_STARTING_BLOCK [Leaf TK_CURLY_PERCENT (txt "{%"); Leaf TK_WHITESPACE (txt " "); Leaf TK_COMPONENT (txt "component"); Leaf TK_WHITESPACE (txt " "); Leaf TK_PERCENT_CURLY (txt "%}")]; Node BODY [Node HTML_TAG [Node HTML_STARTING_TAG [Leaf TK_LINE_BREAK (txt "
"); Leaf TK_WHITESPACE (txt "            "); Leaf TK_LESS_THAN (txt "<"); Leaf TK_WORD (txt "div"); Node HTML_ATTRIBUTE_LIST []; Leaf TK_GREATER_THAN (txt ">")]; Node BODY [Node HTML_TEXT [Leaf TK_WORD (txt "Congrats"); Leaf TK_EXCLAMATION_MARK (txt "!")]]; Node HTML_ENDING_TAG [Leaf TK_LESS_THAN_SLASH (txt "</"); Leaf TK_WORD (txt "div"); Leaf TK_GREATER_THAN (txt ">")]]]; Node TWIG_COMPONENT_ENDING_BLOCK [Leaf TK_LINE_BREAK (txt "
"); Leaf TK_CURLY_PERCENT (txt "{%"); Leaf TK_WHITESPACE (txt " "); Leaf TK_ENDCOMPONENT (txt "endcomponent"); Leaf TK_WHITESPACE (txt " "); Leaf TK_PERCENT_CURLY (txt "%}")]]],
   [txt "error at 13..15: expected component name but found %}"]).

(** grammar/twig/tags.rs:6053 *)
Definition t_tags_6053 : ptest :=
  (txt "{% sw_use 'forms.html.twig' %}",
   Node ROOT [Node TWIG_USE [Leaf TK_CURLY_PERCENT (txt "{%"); Leaf TK_WHITESPACE (txt " "); Leaf TK_SW_USE (txt "sw_use"); Node TWIG_LITERAL_STRING [Leaf TK_WHITESPACE (txt " "); Leaf TK_SINGLE_QUOTES (txt "'"); Node TWIG_LITERAL_STRING_INNER [Leaf TK_WORD (txt "forms"); Leaf TK_DOT (txt "."); Leaf TK_WORD (txt "html"); Leaf TK_DOT (txt "."); Leaf TK_WORD (txt "twig")]; Leaf TK_SINGLE_QUOTES (txt "'")]; Leaf TK_WHITESPACE (txt " "); Leaf TK_PERCENT_CURLY (txt "%}")]],
   []).

(** grammar/twig/tags.rs:6078 *)
Definition t_tags_6078 : ptest :=
  (txt "{% sw_import 'forms.html.twig' as forms %}",
   Node ROOT [Node TWIG_IMPORT [Leaf TK_CURLY_PERCENT (txt "{%"); Leaf TK_WHITESPACE (txt " "); Leaf TK_SW_IMPORT (txt "sw_import"); Node TWIG_EXPRESSION [Node TWIG_LITERAL_STRING [Leaf TK_WHITESPACE (txt " "); Leaf TK_SINGLE_QUOTES (txt "'"); Node TWIG_LITERAL_STRING_INNER [Leaf TK_WORD (txt "forms"); Leaf TK_DOT (txt "."); Leaf TK_WORD (txt "html"); Leaf TK_DOT (txt "."); Leaf TK_WORD (txt "twig")]; Leaf TK_SINGLE_QUOTES (txt "'")]]; Leaf TK_WHITESPACE (txt " "); Leaf TK_AS (txt "as"); Node TWIG_LITERAL_NAME [Leaf TK_WHITESPACE (txt " "); Leaf TK_WORD (txt "forms")]; Leaf TK_WHITESPACE (txt " "); Leaf TK_PERCENT_CURLY (txt "%}")]],
   []).

(** grammar/twig/tags.rs:6109 *)
Definition t_tags_6109 : ptest :=
  (txt "{% sw_from 'forms.html.twig' sw_import input as input_field %}",
   Node ROOT [Node TWIG_FROM [Leaf TK_CURLY_PERCENT (txt "{%"); Leaf TK_WHITESPACE (txt " "); Leaf TK_SW_FROM (txt "sw_from"); Node TWIG_EXPRESSION [Node TWIG_LITERAL_STRING [Leaf TK_WHITESPACE (txt " "); Leaf TK_SINGLE_QUOTES (txt "'"); Node TWIG_LITERAL_STRING_INNER [Leaf TK_WORD (txt "forms"); Leaf TK_DOT (txt "."); Leaf TK_WORD (txt "html"); Leaf TK_DOT (txt "."); Leaf TK_WORD (txt "twig")]; Leaf TK_SINGLE_QUOTES (txt "'")]]; Leaf TK_WHITESPACE (txt " "); Leaf TK_SW_IMPORT (txt "sw_import"); Node TWIG_OVERRIDE [Node TWIG_LITERAL_NAME [Leaf TK_WHITESPACE (txt " "); Leaf TK_WORD (txt "input")]; Leaf TK_WHITESPACE (txt " "); Leaf TK_AS (txt "as"); Node TWIG_LITERAL_NAME [Leaf TK_WHITESPACE (txt " "); Leaf TK_WORD (txt "input_field")]]; Leaf TK_WHITESPACE (txt " "); Leaf TK_PERCENT_CURLY (txt "%}")]],
   []).

(** grammar/twig/tags.rs:6146 *)
Definition t_tags_6146 : ptest :=
  (txt "{% sw_embed 'base.html.twig' %}...{% sw_end_embed %}",
   Node ROOT [Node TWIG_EMBED [Node TWIG_EMBED_STARTING_BLOCK [Leaf TK_CURLY_PERCENT (txt "{%"); Leaf TK_WHITESPACE (txt " "); Leaf TK_SW_EMBED (txt "sw_embed"); Node TWIG_EXPRESSION [Node TWIG_LITERAL_STRING [Leaf TK_WHITESPACE (txt " "); Leaf TK_SINGLE_QUOTES (txt "'"); Node TWIG_LITERAL_STRING_INNER [Leaf TK_WORD (txt "base"); Leaf TK_DOT (txt "."); Leaf TK_WORD (txt "html"); Leaf TK_DOT (txt "."); Leaf TK_WORD (txt "twig")]; Leaf TK_SINGLE_QUOTES (txt "'")]]; Leaf TK_WHITESPACE (txt " "); Leaf TK_PERCENT_CURLY (txt "%}")]; Node BODY [Node HTML_TEXT [Leaf TK_TRIPLE_DOT (txt "...")]]; Node TWIG_EMBED_ENDING_BLOCK [Leaf TK_CURLY_PERCENT (txt "{%"); Leaf TK_WHITESPACE (txt " "); Leaf TK_SW_END_EMBED (txt "sw_end_embed"); Leaf TK_WHITESPACE (txt " "); Leaf TK_PERCENT_CURLY (txt "%}")]]],
   []).

(** grammar/twig/tags.rs:6182 *)
Definition t_tags_6182 : ptest :=
  (txt "{%- block name -%}hello{%- endblock -%}",
   Node ROOT [Node TWIG_BLOCK [Node TWIG_STARTING_BLOCK [Leaf TK_CURLY_PERCENT_MINUS (txt "{%-"); Leaf TK_WHITESPACE (txt " "); Leaf TK_BLOCK (txt "block"); Leaf TK_WHITESPACE (txt " "); Leaf TK_WORD (txt "name"); Leaf TK_WHITESPACE (txt " "); Leaf TK_MINUS_PERCENT_CURLY (txt "-%}")]; Node BODY [Node HTML_TEXT [Leaf TK_WORD (txt "hello")]]; Node TWIG_ENDING_BLOCK [Leaf TK_CURLY_PERCENT_MINUS (txt "{%-"); Leaf TK_WHITESPACE (txt " "); Leaf TK_ENDBLOCK (txt "endblock"); Leaf TK_WHITESPACE (txt " "); Leaf TK_MINUS_PERCENT_CURLY (txt "-%}")]]],
   []).

(** grammar/twig/tags.rs:6209 *)
Definition t_tags_6209 : ptest :=
  (txt "{%- if x %}yes{% endif -%}",
   Node ROOT [Node TWIG_IF [Node TWIG_IF_BLOCK [Leaf TK_CURLY_PERCENT_MINUS (txt "{%-"); Leaf TK_WHITESPACE (txt " "); Leaf TK_IF (txt "if"); Node TWIG_EXPRESSION [Node TWIG_LITERAL_NAME [Leaf TK_WHITESPACE (txt " "); Leaf TK_WORD (txt "x")]]; Leaf TK_WHITESPACE (txt " "); Leaf TK_PERCENT_CURLY (txt "%}")]; Node BODY [Node HTML_TEXT [Leaf TK_WORD (txt "yes")]]; Node TWIG_ENDIF_BLOCK [Leaf TK_CURLY_PERCENT (txt "{%"); Leaf TK_WHITESPACE (txt " "); Leaf TK_ENDIF (txt "endif"); Leaf TK_WHITESPACE (txt " "); Leaf TK_MINUS_PERCENT_CURLY (txt "-%}")]]],
   []).

(** grammar/twig/shopware.rs:235 *)
Definition t_shopware_235 : ptest :=
  (txt "{% sw_extends '@Storefront/storefront/base.html.twig' %}",
   Node ROOT [Node SHOPWARE_TWIG_SW_EXTENDS [Leaf TK_CURLY_PERCENT (txt "{%"); Leaf TK_WHITESPACE (txt " "); Leaf TK_SW_EXTENDS (txt "sw_extends"); Node TWIG_LITERAL_STRING [Leaf TK_WHITESPACE (txt " "); Leaf TK_SINGLE_QUOTES (txt "'"); Node TWIG_LITERAL_STRING_INNER [Leaf TK_WORD (txt "@Storefront"); Leaf TK_FORWARD_SLASH (txt "/"); Leaf TK_WORD (txt "storefront"); Leaf TK_FORWARD_SLASH (txt "/"); Leaf TK_WORD (txt "base"); Leaf TK_DOT (txt "."); Leaf TK_WORD (txt "html"); Leaf TK_DOT (txt "."); Leaf TK_WORD (txt "twig")]; Leaf TK_SINGLE_QUOTES (txt "'")]; Leaf TK_WHITESPACE (txt " "); Leaf TK_PERCENT_CURLY (txt "%}")]],
   []).

(** grammar/twig/shopware.rs:264 *)
Definition t_shopware_264 : ptest :=
  (txt "{% sw_include '@Storefront/storefront/layout/meta.html.twig' %}",
   Node ROOT [Node SHOPWARE_TWIG_SW_INCLUDE [Leaf TK_CURLY_PERCENT (txt "{%"); Leaf TK_WHITESPACE (txt " "); Leaf TK_SW_INCLUDE (txt "sw_include"); Node TWIG_EXPRESSION [Node TWIG_LITERAL_STRING [Leaf TK_WHITESPACE (txt " "); Leaf TK_SINGLE_QUOTES (txt "'"); Node TWIG_LITERAL_STRING_INNER [Leaf TK_WORD (txt "@Storefront"); Leaf TK_FORWARD_SLASH (txt "/"); Leaf TK_WORD (txt "storefront"); Leaf TK_FORWARD_SLASH (txt "/"); Leaf TK_WORD (txt "layout"); Leaf TK_FORWARD_SLASH (txt "/"); Leaf TK_WORD (txt "meta"); Leaf TK_DOT (txt "."); Leaf TK_WORD (txt "html"); Leaf TK_DOT (txt "."); Leaf TK_WORD (txt "twig")]; Leaf TK_SINGLE_QUOTES (txt "'")]]; Leaf TK_WHITESPACE (txt " "); Leaf TK_PERCENT_CURLY (txt "%}")]],
   []).

(** grammar/twig/shopware.rs:296 *)
Definition t_shopware_296 : ptest :=
  (txt "{% sw_include ""@Storefront/storefront/utilities/alert.html.twig"" with { 'type': message.type, 'content': message.text} %}",
   Node ROOT [Node SHOPWARE_TWIG_SW_INCLUDE [Leaf TK_CURLY_PERCENT (txt "{%"); Leaf TK_WHITESPACE (txt " "); Leaf TK_SW_INCLUDE (txt "sw_include"); Node TWIG_EXPRESSION [Node TWIG_LITERAL_STRING [Leaf TK_WHITESPACE (txt " "); Leaf TK_DOUBLE_QUOTES (txt """"); Node TWIG_LITERAL_STRING_INNER [Leaf TK_WORD (txt "@Storefront"); Leaf TK_FORWARD_SLASH (txt "/"); Leaf TK_WORD (txt "storefront"); Leaf TK_FORWARD_SLASH (txt "/"); Leaf TK_WORD (txt "utilities"); Leaf TK_FORWARD_SLASH (txt "/"); Leaf TK_WORD (txt "alert"); Leaf TK_DOT (txt "."); Leaf TK_WORD (txt "html"); Leaf TK_DOT (txt "."); Leaf TK_WORD (txt "twig")]; Leaf TK_DOUBLE_QUOTES (txt """")]]; Node TWIG_INCLUDE_WITH [Leaf TK_WHITESPACE (txt " "); Leaf TK_WITH (txt "with"); Node TWIG_EXPRESSION [Node TWIG_LITERAL_HASH [Leaf TK_WHITESPACE (txt " "); Leaf TK_OPEN_CURLY (txt "{"); Node TWIG_LITERAL_HASH_ITEMS [Node TWIG_LITERAL_HASH_PAIR [Node TWIG_LITERAL_HASH_KEY [Node TWIG_LITERAL_STRING [Leaf TK_WHITESPACE (txt " "); Leaf TK_SINGLE_QUOTES (txt "'"); Node TWIG_LITERAL_STRING_INNER [Leaf TK_WORD (txt "type")]; Leaf TK_SINGLE_QUOTES (txt "'")]]; Leaf TK_COLON (txt ":"); Node TWIG_EXPRESSION [Node TWIG_ACCESSOR [Node TWIG_OPERAND [Node TWIG_LITERAL_NAME [Leaf TK_WHITESPACE (txt " "); Leaf TK_WORD (txt "message")]]; Leaf TK_DOT (txt "."); Node TWIG_OPERAND [Node TWIG_LITERAL_NAME [Leaf TK_WORD (txt "type")]]]]]; Leaf TK_COMMA (txt ","); Node TWIG_LITERAL_HASH_PAIR [Node TWIG_LITERAL_HASH_KEY [Node TWIG_LITERAL_STRING [Leaf TK_WHITESPACE (txt " "); Leaf TK_SINGLE_QUOTES (txt "'"); Node TWIG_LITERAL_STRING_INNER [Leaf TK_WORD (txt "content")]; Leaf TK_SINGLE_QUOTES (txt "'")]]; Leaf TK_COLON (txt ":"); Node TWIG_EXPRESSION [Node TWIG_ACCESSOR [Node TWIG_OPERAND [Node TWIG_LITERAL_NAME [Leaf TK_WHITESPACE (txt " "); Leaf TK_WORD (txt "message")]]; Leaf TK_DOT (txt "."); Node TWIG_OPERAND [Node TWIG_LITERAL_NAME [Leaf TK_WORD (txt "text")]]]]]]; Leaf TK_CLOSE_CURLY (txt "}")]]]; Leaf TK_WHITESPACE (txt " "); Leaf TK_PERCENT_CURLY (txt "%}")]],
   []).

(** grammar/twig/shopware.rs:376 *)
Definition t_shopware_376 : ptest :=
  (txt "{% sw_silent_feature_call ""v6.5.0.0"" %}
            {{ counter.incrementPage() }}
{% endsw_silent_feature_call %}",
   Node ROOT [Node SHOPWARE_SILENT_FEATURE_CALL [Node SHOPWARE_SILENT_FEATURE_CALL_STARTING_BLOCK [Leaf TK_CURLY_PERCENT (txt "{%"); Leaf TK_WHITESPACE (txt " "); Leaf TK_SW_SILENT_FEATURE_CALL (txt "sw_silent_feature_call"); Node TWIG_LITERAL_STRING [Leaf TK_WHITESPACE (txt " "); Leaf TK_DOUBLE_QUOTES (txt """"); Node TWIG_LITERAL_STRING_INNER [Leaf TK_WORD (txt "v6"); Leaf TK_DOT (txt "."); Leaf TK_NUMBER (txt "5.0"); Leaf TK_DOT (txt "."); Leaf TK_NUMBER (txt "0")]; Leaf TK_DOUBLE_QUOTES (txt """")]; Leaf TK_WHITESPACE (txt " "); Leaf TK_PERCENT_CURLY (txt "%}")]; Node BODY [Node TWIG_VAR [Leaf TK_LINE_BREAK (txt "
"); Leaf TK_WHITESPACE (txt "            "); Leaf TK_OPEN_CURLY_CURLY (txt "{{"); Node TWIG_EXPRESSION [Node TWIG_FUNCTION_CALL [Node TWIG_OPERAND [Node TWIG_ACCESSOR [Node TWIG_OPERAND [Node TWIG_LITERAL_NAME [Leaf TK_WHITESPACE (txt " "); Leaf TK_WORD (txt "counter")]]; Leaf TK_DOT (txt "."); Node TWIG_OPERAND [Node TWIG_LITERAL_NAME [Leaf TK_WORD (txt "incrementPage")]]]]; Node TWIG_ARGUMENTS [Leaf TK_OPEN_PARENTHESIS (txt "("); Leaf TK_CLOSE_PARENTHESIS (txt ")")]]]; Leaf TK_WHITESPACE (txt " "); Leaf TK_CLOSE_CURLY_CURLY (txt "}}")]]; Node SHOPWARE_SILENT_FEATURE_CALL_ENDING_BLOCK [Leaf TK_LINE_BREAK (txt "
"); Leaf TK_CURLY_PERCENT (txt "{%"); Leaf TK_WHITESPACE (txt " "); Leaf TK_ENDSW_SILENT_FEATURE_CALL (txt "endsw_silent_feature_call"); Leaf TK_WHITESPACE (txt " "); Leaf TK_PERCENT_CURLY (txt "%}")]]],
   []).

(** grammar/twig/shopware.rs:433 *)
Definition t_shopware_433 : ptest :=
  (txt "{% return %}",
   Node ROOT [Node SHOPWARE_RETURN [Leaf TK_CURLY_PERCENT (txt "{%"); Leaf TK_WHITESPACE (txt " "); Leaf TK_RETURN (txt "return"); Leaf TK_WHITESPACE (txt " "); Leaf TK_PERCENT_CURLY (txt "%}")]],
   []).

(** grammar/twig/shopware.rs:448 *)
Definition t_shopware_448 : ptest :=
  (txt "{% return 5 %}",
   Node ROOT [Node SHOPWARE_RETURN [Leaf TK_CURLY_PERCENT (txt "{%"); Leaf TK_WHITESPACE (txt " "); Leaf TK_RETURN (txt "return"); Node TWIG_EXPRESSION [Node TWIG_LITERAL_NUMBER [Leaf TK_WHITESPACE (txt " "); Leaf TK_NUMBER (txt "5")]]; Leaf TK_WHITESPACE (txt " "); Leaf TK_PERCENT_CURLY (txt "%}")]],
   []).

(** grammar/twig/shopware.rs:467 *)
Definition t_shopware_467 : ptest :=
  (txt "{% return not compare('=', 'foo', test) %}",
   Node ROOT [Node SHOPWARE_RETURN [Leaf TK_CURLY_PERCENT (txt "{%"); Leaf TK_WHITESPACE (txt " "); Leaf TK_RETURN (txt "return"); Node TWIG_EXPRESSION [Node TWIG_UNARY_EXPRESSION [Leaf TK_WHITESPACE (txt " "); Leaf TK_NOT (txt "not"); Node TWIG_EXPRESSION [Node TWIG_FUNCTION_CALL [Node TWIG_OPERAND [Node TWIG_LITERAL_NAME [Leaf TK_WHITESPACE (txt " "); Leaf TK_WORD (txt "compare")]]; Node TWIG_ARGUMENTS [Leaf TK_OPEN_PARENTHESIS (txt "("); Node TWIG_EXPRESSION [Node TWIG_LITERAL_STRING [Leaf TK_SINGLE_QUOTES (txt "'"); Node TWIG_LITERAL_STRING_INNER [Leaf TK_EQUAL (txt "=")]; Leaf TK_SINGLE_QUOTES (txt "'")]]; Leaf TK_COMMA (txt ","); Node TWIG_EXPRESSION [Node TWIG_LITERAL_STRING [Leaf TK_WHITESPACE (txt " "); Leaf TK_SINGLE_QUOTES (txt "'"); Node TWIG_LITERAL_STRING_INNER [Leaf TK_WORD (txt "foo")]; Leaf TK_SINGLE_QUOTES (txt "'")]]; Leaf TK_COMMA (txt ","); Node TWIG_EXPRESSION [Node TWIG_LITERAL_NAME [Leaf TK_WHITESPACE (txt " "); Leaf TK_WORD (txt "test")]]; Leaf TK_CLOSE_PARENTHESIS (txt ")")]]]]]; Leaf TK_WHITESPACE (txt " "); Leaf TK_PERCENT_CURLY (txt "%}")]],
   []).

(** grammar/twig/shopware.rs:514 *)
Definition t_shopware_514 : ptest :=
  (txt "{% sw_icon 'clock' %}",
   Node ROOT [Node SHOPWARE_ICON [Leaf TK_CURLY_PERCENT (txt "{%"); Leaf TK_WHITESPACE (txt " "); Leaf TK_SW_ICON (txt "sw_icon"); Node TWIG_EXPRESSION [Node TWIG_LITERAL_STRING [Leaf TK_WHITESPACE (txt " "); Leaf TK_SINGLE_QUOTES (txt "'"); Node TWIG_LITERAL_STRING_INNER [Leaf TK_WORD (txt "clock")]; Leaf TK_SINGLE_QUOTES (txt "'")]]; Leaf TK_WHITESPACE (txt " "); Leaf TK_PERCENT_CURLY (txt "%}")]],
   []).

(** grammar/twig/shopware.rs:536 *)
Definition t_shopware_536 : ptest :=
  (txt "{% sw_icon 'minus' style { 'size': 'xs' } %}",
   Node ROOT [Node SHOPWARE_ICON [Leaf TK_CURLY_PERCENT (txt "{%"); Leaf TK_WHITESPACE (txt " "); Leaf TK_SW_ICON (txt "sw_icon"); Node TWIG_EXPRESSION [Node TWIG_LITERAL_STRING [Leaf TK_WHITESPACE (txt " "); Leaf TK_SINGLE_QUOTES (txt "'"); Node TWIG_LITERAL_STRING_INNER [Leaf TK_WORD (txt "minus")]; Leaf TK_SINGLE_QUOTES (txt "'")]]; Node SHOPWARE_ICON_STYLE [Leaf TK_WHITESPACE (txt " "); Leaf TK_STYLE (txt "style"); Node TWIG_EXPRESSION [Node TWIG_LITERAL_HASH [Leaf TK_WHITESPACE (txt " "); Leaf TK_OPEN_CURLY (txt "{"); Node TWIG_LITERAL_HASH_ITEMS [Node TWIG_LITERAL_HASH_PAIR [Node TWIG_LITERAL_HASH_KEY [Node TWIG_LITERAL_STRING [Leaf TK_WHITESPACE (txt " "); Leaf TK_SINGLE_QUOTES (txt "'"); Node TWIG_LITERAL_STRING_INNER [Leaf TK_WORD (txt "size")]; Leaf TK_SINGLE_QUOTES (txt "'")]]; Leaf TK_COLON (txt ":"); Node TWIG_EXPRESSION [Node TWIG_LITERAL_STRING [Leaf TK_WHITESPACE (txt " "); Leaf TK_SINGLE_QUOTES (txt "'"); Node TWIG_LITERAL_STRING_INNER [Leaf TK_WORD (txt "xs")]; Leaf TK_SINGLE_QUOTES (txt "'")]]]]; Leaf TK_WHITESPACE (txt " "); Leaf TK_CLOSE_CURLY (txt "}")]]]; Leaf TK_WHITESPACE (txt " "); Leaf TK_PERCENT_CURLY (txt "%}")]],
   []).

(** grammar/twig/shopware.rs:584 *)
Definition t_shopware_584 : ptest :=
  (txt "{% sw_thumbnails 'cart-item-img-thumbnails' %}",
   Node ROOT [Node SHOPWARE_THUMBNAILS [Leaf TK_CURLY_PERCENT (txt "{%"); Leaf TK_WHITESPACE (txt " "); Leaf TK_SW_THUMBNAILS (txt "sw_thumbnails"); Node TWIG_EXPRESSION [Node TWIG_LITERAL_STRING [Leaf TK_WHITESPACE (txt " "); Leaf TK_SINGLE_QUOTES (txt "'"); Node TWIG_LITERAL_STRING_INNER [Leaf TK_WORD (txt "cart-item-img-thumbnails")]; Leaf TK_SINGLE_QUOTES (txt "'")]]; Leaf TK_WHITESPACE (txt " "); Leaf TK_PERCENT_CURLY (txt "%}")]],
   []).

(** grammar/twig/shopware.rs:606 *)
Definition t_shopware_606 : ptest :=
  (txt "{% sw_thumbnails 'product-image-thumbnails' with { media: product.cover.media } %}",
   Node ROOT [Node SHOPWARE_THUMBNAILS [Leaf TK_CURLY_PERCENT (txt "{%"); Leaf TK_WHITESPACE (txt " "); Leaf TK_SW_THUMBNAILS (txt "sw_thumbnails"); Node TWIG_EXPRESSION [Node TWIG_LITERAL_STRING [Leaf TK_WHITESPACE (txt " "); Leaf TK_SINGLE_QUOTES (txt "'"); Node TWIG_LITERAL_STRING_INNER [Leaf TK_WORD (txt "product-image-thumbnails")]; Leaf TK_SINGLE_QUOTES (txt "'")]]; Node SHOPWARE_THUMBNAILS_WITH [Leaf TK_WHITESPACE (txt " "); Leaf TK_WITH (txt "with"); Node TWIG_EXPRESSION [Node TWIG_LITERAL_HASH [Leaf TK_WHITESPACE (txt " "); Leaf TK_OPEN_CURLY (txt "{"); Node TWIG_LITERAL_HASH_ITEMS [Node TWIG_LITERAL_HASH_PAIR [Node TWIG_LITERAL_HASH_KEY [Leaf TK_WHITESPACE (txt " "); Leaf TK_WORD (txt "media")]; Leaf TK_COLON (txt ":"); Node TWIG_EXPRESSION [Node TWIG_ACCESSOR [Node TWIG_OPERAND [Node TWIG_ACCESSOR [Node TWIG_OPERAND [Node TWIG_LITERAL_NAME [Leaf TK_WHITESPACE (txt " "); Leaf TK_WORD (txt "product")]]; Leaf TK_DOT (txt "."); Node TWIG_OPERAND [Node TWIG_LITERAL_NAME [Leaf TK_WORD (txt "cover")]]]]; Leaf TK_DOT (txt "."); Node TWIG_OPERAND [Node TWIG_LITERAL_NAME [Leaf TK_WORD (txt "media")]]]]]]; Leaf TK_WHITESPACE (txt " "); Leaf TK_CLOSE_CURLY (txt "}")]]]; Leaf TK_WHITESPACE (txt " "); Leaf TK_PERCENT_CURLY (txt "%}")]],
   []).

(** grammar/twig.rs:79 *)
Definition t_twig_79 : ptest :=
  (txt "{{ something }} plain {{ else }}",
   Node ROOT [Node TWIG_VAR [Leaf TK_OPEN_CURLY_CURLY (txt "{{"); Node TWIG_EXPRESSION [Node TWIG_LITERAL_NAME [Leaf TK_WHITESPACE (txt " "); Leaf TK_WORD (txt "something")]]; Leaf TK_WHITESPACE (txt " "); Leaf TK_CLOSE_CURLY_CURLY (txt "}}")]; Node HTML_TEXT [Leaf TK_WHITESPACE (txt " "); Leaf TK_WORD (txt "plain")]; Node TWIG_VAR [Leaf TK_WHITESPACE (txt " "); Leaf TK_OPEN_CURLY_CURLY (txt "{{"); Node TWIG_EXPRESSION [Node TWIG_LITERAL_NAME [Leaf TK_WHITESPACE (txt " "); Leaf TK_WORD (txt "else")]]; Leaf TK_WHITESPACE (txt " "); Leaf TK_CLOSE_CURLY_CURLY (txt "}}")]],
   []).

(** grammar/twig.rs:108 *)
Definition t_twig_108 : ptest :=
  (txt "{# something #} plain {# {{ comment }} {% block asdf %} #}",
   Node ROOT [Node TWIG_COMMENT [Leaf TK_OPEN_CURLY_HASHTAG (txt "{#"); Leaf TK_WHITESPACE (txt " "); Leaf TK_WORD (txt "something"); Leaf TK_WHITESPACE (txt " "); Leaf TK_HASHTAG_CLOSE_CURLY (txt "#}")]; Node HTML_TEXT [Leaf TK_WHITESPACE (txt " "); Leaf TK_WORD (txt "plain")]; Node TWIG_COMMENT [Leaf TK_WHITESPACE (txt " "); Leaf TK_OPEN_CURLY_HASHTAG (txt "{#"); Leaf TK_WHITESPACE (txt " "); Leaf TK_OPEN_CURLY_CURLY (txt "{{"); Leaf TK_WHITESPACE (txt " "); Leaf TK_WORD (txt "comment"); Leaf TK_WHITESPACE (txt " "); Leaf TK_CLOSE_CURLY_CURLY (txt "}}"); Leaf TK_WHITESPACE (txt " "); Leaf TK_CURLY_PERCENT (txt "{%"); Leaf TK_WHITESPACE (txt " "); Leaf TK_BLOCK (txt "block"); Leaf TK_WHITESPACE (txt " "); Leaf TK_WORD (txt "asdf"); Leaf TK_WHITESPACE (txt " "); Leaf TK_PERCENT_CURLY (txt "%}"); Leaf TK_WHITESPACE (txt " "); Leaf TK_HASHTAG_CLOSE_CURLY (txt "#}")]],
   []).

(** grammar/twig.rs:145 *)
Definition t_twig_145 : ptest :=
  (txt "{{ component('Alert', { message: 'Hello Twig Components!' }) }}",
   Node ROOT [Node TWIG_VAR [Leaf TK_OPEN_CURLY_CURLY (txt "{{"); Node TWIG_EXPRESSION [Node TWIG_FUNCTION_CALL [Node TWIG_OPERAND [Node TWIG_LITERAL_NAME [Leaf TK_WHITESPACE (txt " "); Leaf TK_WORD (txt "component")]]; Node TWIG_ARGUMENTS [Leaf TK_OPEN_PARENTHESIS (txt "("); Node TWIG_EXPRESSION [Node TWIG_LITERAL_STRING [Leaf TK_SINGLE_QUOTES (txt "'"); Node TWIG_LITERAL_STRING_INNER [Leaf TK_WORD (txt "Alert")]; Leaf TK_SINGLE_QUOTES (txt "'")]]; Leaf TK_COMMA (txt ","); Node TWIG_EXPRESSION [Node TWIG_LITERAL_HASH [Leaf TK_WHITESPACE (txt " "); Leaf TK_OPEN_CURLY (txt "{"); Node TWIG_LITERAL_HASH_ITEMS [Node TWIG_LITERAL_HASH_PAIR [Node TWIG_LITERAL_HASH_KEY [Leaf TK_WHITESPACE (txt " "); Leaf TK_WORD (txt "message")]; Leaf TK_COLON (txt ":"); Node TWIG_EXPRESSION [Node TWIG_LITERAL_STRING [Leaf TK_WHITESPACE (txt " "); Leaf TK_SINGLE_QUOTES (txt "'"); Node TWIG_LITERAL_STRING_INNER [Leaf TK_WORD (txt "Hello"); Leaf TK_WHITESPACE (txt " "); Leaf TK_WORD (txt "Twig"); Leaf TK_WHITESPACE (txt " "); Leaf TK_WORD (txt "Components"); Leaf TK_EXCLAMATION_MARK (txt "!")]; Leaf TK_SINGLE_QUOTES (txt "'")]]]]; Leaf TK_WHITESPACE (txt " "); Leaf TK_CLOSE_CURLY (txt "}")]]; Leaf TK_CLOSE_PARENTHESIS (txt ")")]]]; Leaf TK_WHITESPACE (txt " "); Leaf TK_CLOSE_CURLY_CURLY (txt "}}")]],
   []).

(** grammar/twig.rs:198 *)
Definition t_twig_198 : ptest :=
  (txt "{{- something -}}",
   Node ROOT [Node TWIG_VAR [Leaf TK_OPEN_CURLY_CURLY_MINUS (txt "{{-"); Node TWIG_EXPRESSION [Node TWIG_LITERAL_NAME [Leaf TK_WHITESPACE (txt " "); Leaf TK_WORD (txt "something")]]; Leaf TK_WHITESPACE (txt " "); Leaf TK_MINUS_CLOSE_CURLY_CURLY (txt "-}}")]],
   []).

(** grammar/twig.rs:215 *)
Definition t_twig_215 : ptest :=
  (txt "{{~ something ~}}",
   Node ROOT [Node TWIG_VAR [Leaf TK_OPEN_CURLY_CURLY_TILDE (txt "{{~"); Node TWIG_EXPRESSION [Node TWIG_LITERAL_NAME [Leaf TK_WHITESPACE (txt " "); Leaf TK_WORD (txt "something")]]; Leaf TK_WHITESPACE (txt " "); Leaf TK_TILDE_CLOSE_CURLY_CURLY (txt "~}}")]],
   []).

(** grammar/twig.rs:232 *)
Definition t_twig_232 : ptest :=
  (txt "{#- comment -#}",
   Node ROOT [Node TWIG_COMMENT [Leaf TK_OPEN_CURLY_HASHTAG_MINUS (txt "{#-"); Leaf TK_WHITESPACE (txt " "); Leaf TK_WORD (txt "comment"); Leaf TK_WHITESPACE (txt " "); Leaf TK_MINUS_HASHTAG_CLOSE_CURLY (txt "-#}")]],
   []).

Definition tests : list ptest :=
  [t_tags_1478; t_tags_1493; t_tags_1524; t_tags_1601; t_tags_1632; t_tags_1686; t_tags_1728; t_tags_1774; t_tags_1831; t_tags_1903; t_tags_1937; t_tags_1960; t_tags_2018; t_tags_2077; t_tags_2105; t_tags_2134; t_tags_2170; t_tags_2223; t_tags_2269; t_tags_2314; t_tags_2342; t_tags_2365; t_tags_2399; t_tags_2461; t_tags_2515; t_tags_2587; t_tags_2670; t_tags_2772; t_tags_2833; t_tags_2892; t_tags_2916; t_tags_2935; t_tags_2974; t_tags_3017; t_tags_3033; t_tags_3057; t_tags_3088; t_tags_3136; t_tags_3186; t_tags_3212; t_tags_3255; t_tags_3302; t_tags_3318; t_tags_3346; t_tags_3385; t_tags_3410; t_tags_3440; t_tags_3484; t_tags_3510; t_tags_3539; t_tags_3578; t_tags_3637; t_tags_3724; t_tags_3757; t_tags_3793; t_tags_3847; t_tags_3909; t_tags_3957; t_tags_4017; t_tags_4062; t_tags_4078; t_tags_4105; t_tags_4121; t_tags_4182; t_tags_4245; t_tags_4284; t_tags_4299; t_tags_4339; t_tags_4380; t_tags_4407; t_tags_4433; t_tags_4462; t_tags_4492; t_tags_4519; t_tags_4545; t_tags_4588; t_tags_4682; t_tags_4822; t_tags_4859; t_tags_4897; t_tags_4934; t_tags_5003; t_tags_5068; t_tags_5133; t_tags_5226; t_tags_5279; t_tags_5332; t_tags_5397; t_tags_5470; t_tags_5549; t_tags_5582; t_tags_5611; t_tags_5644; t_tags_5820; t_tags_5924; t_tags_6010; t_tags_6053; t_tags_6078; t_tags_6109; t_tags_6146; t_tags_6182; t_tags_6209; t_shopware_235; t_shopware_264; t_shopware_296; t_shopware_376; t_shopware_433; t_shopware_448; t_shopware_467; t_shopware_514; t_shopware_536; t_shopware_584; t_shopware_606; t_twig_79; t_twig_108; t_twig_145; t_twig_198; t_twig_215; t_twig_232].

(** Debug builds: the tests run with debug assertions. *)
Example conformance : failing true tests = [].
Proof. vm_compute. reflexivity. Qed.
