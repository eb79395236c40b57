(** Conformance tests (tests, not proofs): the inputs and expected trees and messages of the
    repository's own parser tests ([check_parse] in grammar/html.rs, grammar.rs, parser.rs), run on the model.
    Generated from the test modules. *)
From Coq Require Import List NArith String Bool.
Import ListNotations.
From Verif Require Import Text Kind Lexer ParserApi Machine Render.
Local Open Scope string_scope.
Local Open Scope list_scope.


(** grammar/html.rs:443 *)
Definition t_html_443 : ptest :=
  (txt "<div></div>",
   Node ROOT [Node HTML_TAG [Node HTML_STARTING_TAG [Leaf TK_LESS_THAN (txt "<"); Leaf TK_WORD (txt "div"); Node HTML_ATTRIBUTE_LIST []; Leaf TK_GREATER_THAN (txt ">")]; Node BODY []; Node HTML_ENDING_TAG [Leaf TK_LESS_THAN_SLASH (txt "</"); Leaf TK_WORD (txt "div"); Leaf TK_GREATER_THAN (txt ">")]]],
   []).

(** grammar/html.rs:463 *)
Definition t_html_463 : ptest :=
  (txt "<div class=""my-class1 my-class2"" style=""color: blue;""></div>",
   Node ROOT [Node HTML_TAG [Node HTML_STARTING_TAG [Leaf TK_LESS_THAN (txt "<"); Leaf TK_WORD (txt "div"); Node HTML_ATTRIBUTE_LIST [Node HTML_ATTRIBUTE [Leaf TK_WHITESPACE (txt " "); Leaf TK_WORD (txt "class"); Leaf TK_EQUAL (txt "="); Node HTML_STRING [Leaf TK_DOUBLE_QUOTES (txt """"); Node HTML_STRING_INNER [Leaf TK_WORD (txt "my-class1"); Leaf TK_WHITESPACE (txt " "); Leaf TK_WORD (txt "my-class2")]; Leaf TK_DOUBLE_QUOTES (txt """")]]; Node HTML_ATTRIBUTE [Leaf TK_WHITESPACE (txt " "); Leaf TK_WORD (txt "style"); Leaf TK_EQUAL (txt "="); Node HTML_STRING [Leaf TK_DOUBLE_QUOTES (txt """"); Node HTML_STRING_INNER [Leaf TK_WORD (txt "color"); Leaf TK_COLON (txt ":"); Leaf TK_WHITESPACE (txt " "); Leaf TK_WORD (txt "blue"); Leaf TK_SEMICOLON (txt ";")]; Leaf TK_DOUBLE_QUOTES (txt """")]]]; Leaf TK_GREATER_THAN (txt ">")]; Node BODY []; Node HTML_ENDING_TAG [Leaf TK_LESS_THAN_SLASH (txt "</"); Leaf TK_WORD (txt "div"); Leaf TK_GREATER_THAN (txt ">")]]],
   []).

(** grammar/html.rs:507 *)
Definition t_html_507 : ptest :=
  (txt "<div>hello<span>world</span>!</div>",
   Node ROOT [Node HTML_TAG [Node HTML_STARTING_TAG [Leaf TK_LESS_THAN (txt "<"); Leaf TK_WORD (txt "div"); Node HTML_ATTRIBUTE_LIST []; Leaf TK_GREATER_THAN (txt ">")]; Node BODY [Node HTML_TEXT [Leaf TK_WORD (txt "hello")]; Node HTML_TAG [Node HTML_STARTING_TAG [Leaf TK_LESS_THAN (txt "<"); Leaf TK_WORD (txt "span"); Node HTML_ATTRIBUTE_LIST []; Leaf TK_GREATER_THAN (txt ">")]; Node BODY [Node HTML_TEXT [Leaf TK_WORD (txt "world")]]; Node HTML_ENDING_TAG [Leaf TK_LESS_THAN_SLASH (txt "</"); Leaf TK_WORD (txt "span"); Leaf TK_GREATER_THAN (txt ">")]]; Node HTML_TEXT [Leaf TK_EXCLAMATION_MARK (txt "!")]]; Node HTML_ENDING_TAG [Leaf TK_LESS_THAN_SLASH (txt "</"); Leaf TK_WORD (txt "div"); Leaf TK_GREATER_THAN (txt ">")]]],
   []).

(** grammar/html.rs:544 *)
Definition t_html_544 : ptest :=
  (txt "<div>hello<span>world</span><p>paragraph</p>
                    <div>something</div>
                    </div>",
   Node ROOT [Node HTML_TAG [Node HTML_STARTING_TAG [Leaf TK_LESS_THAN (txt "<"); Leaf TK_WORD (txt "div"); Node HTML_ATTRIBUTE_LIST []; Leaf TK_GREATER_THAN (txt ">")]; Node BODY [Node HTML_TEXT [Leaf TK_WORD (txt "hello")]; Node HTML_TAG [Node HTML_STARTING_TAG [Leaf TK_LESS_THAN (txt "<"); Leaf TK_WORD (txt "span"); Node HTML_ATTRIBUTE_LIST []; Leaf TK_GREATER_THAN (txt ">")]; Node BODY [Node HTML_TEXT [Leaf TK_WORD (txt "world")]]; Node HTML_ENDING_TAG [Leaf TK_LESS_THAN_SLASH (txt "</"); Leaf TK_WORD (txt "span"); Leaf TK_GREATER_THAN (txt ">")]]; Node HTML_TAG [Node HTML_STARTING_TAG [Leaf TK_LESS_THAN (txt "<"); Leaf TK_WORD (txt "p"); Node HTML_ATTRIBUTE_LIST []; Leaf TK_GREATER_THAN (txt ">")]; Node BODY [Node HTML_TEXT [Leaf TK_WORD (txt "paragraph")]]; Node HTML_ENDING_TAG [Leaf TK_LESS_THAN_SLASH (txt "</"); Leaf TK_WORD (txt "p"); Leaf TK_GREATER_THAN (txt ">")]]; Node HTML_TAG [Node HTML_STARTING_TAG [Leaf TK_LINE_BREAK (txt "
"); Leaf TK_WHITESPACE (txt "                    "); Leaf TK_LESS_THAN (txt "<"); Leaf TK_WORD (txt "div"); Node HTML_ATTRIBUTE_LIST []; Leaf TK_GREATER_THAN (txt ">")]; Node BODY [Node HTML_TEXT [Leaf TK_WORD (txt "something")]]; Node HTML_ENDING_TAG [Leaf TK_LESS_THAN_SLASH (txt "</"); Leaf TK_WORD (txt "div"); Leaf TK_GREATER_THAN (txt ">")]]]; Node HTML_ENDING_TAG [Leaf TK_LINE_BREAK (txt "
"); Leaf TK_WHITESPACE (txt "                    "); Leaf TK_LESS_THAN_SLASH (txt "</"); Leaf TK_WORD (txt "div"); Leaf TK_GREATER_THAN (txt ">")]]],
   []).

(** grammar/html.rs:613 *)
Definition t_html_613 : ptest :=
  (txt "<div>hello<hr/></div>",
   Node ROOT [Node HTML_TAG [Node HTML_STARTING_TAG [Leaf TK_LESS_THAN (txt "<"); Leaf TK_WORD (txt "div"); Node HTML_ATTRIBUTE_LIST []; Leaf TK_GREATER_THAN (txt ">")]; Node BODY [Node HTML_TEXT [Leaf TK_WORD (txt "hello")]; Node HTML_TAG [Node HTML_STARTING_TAG [Leaf TK_LESS_THAN (txt "<"); Leaf TK_WORD (txt "hr"); Node HTML_ATTRIBUTE_LIST []; Leaf TK_SLASH_GREATER_THAN (txt "/>")]]]; Node HTML_ENDING_TAG [Leaf TK_LESS_THAN_SLASH (txt "</"); Leaf TK_WORD (txt "div"); Leaf TK_GREATER_THAN (txt ">")]]],
   []).

(** grammar/html.rs:641 *)
Definition t_html_641 : ptest :=
  (txt "<div>hello<span>world!</div>",
   Node ROOT [Node HTML_TAG [Node HTML_STARTING_TAG [Leaf TK_LESS_THAN (txt "<"); Leaf TK_WORD (txt "div"); Node HTML_ATTRIBUTE_LIST []; Leaf TK_GREATER_THAN (txt ">")]; Node BODY [Node HTML_TEXT [Leaf TK_WORD (txt "hello")]; Node HTML_TAG [Node HTML_STARTING_TAG [Leaf TK_LESS_THAN (txt "<"); Leaf TK_WORD (txt "span"); Node HTML_ATTRIBUTE_LIST []; Leaf TK_GREATER_THAN (txt ">")]; Node BODY [Node HTML_TEXT [Leaf TK_WORD (txt "world"); Leaf TK_EXCLAMATION_MARK (txt "!")]]; Node HTML_ENDING_TAG [Node ERROR [Leaf TK_LESS_THAN_SLASH (txt "</"); Leaf TK_WORD (txt "div"); Leaf TK_GREATER_THAN (txt ">")]]]]; Node HTML_ENDING_TAG []]],
   [txt "error at 22..24: expected </span> ending tag but found </"; txt "error at 27..28: expected </div> ending tag but reached end of file"]).

(** grammar/html.rs:677 *)
Definition t_html_677 : ptest :=
  (txt "<div>
            {% block a %}
            <p>
                hello
            {% endblock %}
            <span>world</span>
            </p>
            </div>",
   Node ROOT [Node HTML_TAG [Node HTML_STARTING_TAG [Leaf TK_LESS_THAN (txt "<"); Leaf TK_WORD (txt "div"); Node HTML_ATTRIBUTE_LIST []; Leaf TK_GREATER_THAN (txt ">")]; Node BODY [Node TWIG_BLOCK [Node TWIG_STARTING_BLOCK [Leaf TK_LINE_BREAK (txt "
"); Leaf TK_WHITESPACE (txt "            "); Leaf TK_CURLY_PERCENT (txt "{%"); Leaf TK_WHITESPACE (txt " "); Leaf TK_BLOCK (txt "block"); Leaf TK_WHITESPACE (txt " "); Leaf TK_WORD (txt "a"); Leaf TK_WHITESPACE (txt " "); Leaf TK_PERCENT_CURLY (txt "%}")]; Node BODY [Node HTML_TAG [Node HTML_STARTING_TAG [Leaf TK_LINE_BREAK (txt "
"); Leaf TK_WHITESPACE (txt "            "); Leaf TK_LESS_THAN (txt "<"); Leaf TK_WORD (txt "p"); Node HTML_ATTRIBUTE_LIST []; Leaf TK_GREATER_THAN (txt ">")]; Node BODY [Node HTML_TEXT [Leaf TK_LINE_BREAK (txt "
"); Leaf TK_WHITESPACE (txt "                "); Leaf TK_WORD (txt "hello")]]; Node HTML_ENDING_TAG []]]; Node TWIG_ENDING_BLOCK [Leaf TK_LINE_BREAK (txt "
"); Leaf TK_WHITESPACE (txt "            "); Leaf TK_CURLY_PERCENT (txt "{%"); Leaf TK_WHITESPACE (txt " "); Leaf TK_ENDBLOCK (txt "endblock"); Leaf TK_WHITESPACE (txt " "); Leaf TK_PERCENT_CURLY (txt "%}")]]; Node HTML_TAG [Node HTML_STARTING_TAG [Leaf TK_LINE_BREAK (txt "
"); Leaf TK_WHITESPACE (txt "            "); Leaf TK_LESS_THAN (txt "<"); Leaf TK_WORD (txt "span"); Node HTML_ATTRIBUTE_LIST []; Leaf TK_GREATER_THAN (txt ">")]; Node BODY [Node HTML_TEXT [Leaf TK_WORD (txt "world")]]; Node HTML_ENDING_TAG [Leaf TK_LESS_THAN_SLASH (txt "</"); Leaf TK_WORD (txt "span"); Leaf TK_GREATER_THAN (txt ">")]]]; Node HTML_ENDING_TAG [Node ERROR [Leaf TK_LINE_BREAK (txt "
"); Leaf TK_WHITESPACE (txt "            "); Leaf TK_LESS_THAN_SLASH (txt "</"); Leaf TK_WORD (txt "p"); Leaf TK_GREATER_THAN (txt ">"); Leaf TK_LINE_BREAK (txt "
"); Leaf TK_WHITESPACE (txt "            "); Leaf TK_LESS_THAN_SLASH (txt "</"); Leaf TK_WORD (txt "div"); Leaf TK_GREATER_THAN (txt ">")]]]],
   [txt "error at 82..84: expected </p> ending tag but found {%"; txt "error at 140..142: expected </div> ending tag but found </"]).

(** grammar/html.rs:763 *)
Definition t_html_763 : ptest :=
  (txt "<div>{% block inner %} hello </div>",
   Node ROOT [Node HTML_TAG [Node HTML_STARTING_TAG [Leaf TK_LESS_THAN (txt "<"); Leaf TK_WORD (txt "div"); Node HTML_ATTRIBUTE_LIST []; Leaf TK_GREATER_THAN (txt ">")]; Node BODY [Node TWIG_BLOCK [Node TWIG_STARTING_BLOCK [Leaf TK_CURLY_PERCENT (txt "{%"); Leaf TK_WHITESPACE (txt " "); Leaf TK_BLOCK (txt "block"); Leaf TK_WHITESPACE (txt " "); Leaf TK_WORD (txt "inner"); Leaf TK_WHITESPACE (txt " "); Leaf TK_PERCENT_CURLY (txt "%}")]; Node BODY [Node HTML_TEXT [Leaf TK_WHITESPACE (txt " "); Leaf TK_WORD (txt "hello")]]; Node TWIG_ENDING_BLOCK []]]; Node HTML_ENDING_TAG [Leaf TK_WHITESPACE (txt " "); Leaf TK_LESS_THAN_SLASH (txt "</"); Leaf TK_WORD (txt "div"); Leaf TK_GREATER_THAN (txt ">")]]],
   [txt "error at 29..31: expected {% or {%- or {%~ but found </"; txt "error at 29..31: expected endblock but found </"; txt "error at 29..31: expected %} or -%} or ~%} but found </"]).

(** grammar/html.rs:801 *)
Definition t_html_801 : ptest :=
  (txt "<div>{% block inner %}<span>hello</div>",
   Node ROOT [Node HTML_TAG [Node HTML_STARTING_TAG [Leaf TK_LESS_THAN (txt "<"); Leaf TK_WORD (txt "div"); Node HTML_ATTRIBUTE_LIST []; Leaf TK_GREATER_THAN (txt ">")]; Node BODY [Node TWIG_BLOCK [Node TWIG_STARTING_BLOCK [Leaf TK_CURLY_PERCENT (txt "{%"); Leaf TK_WHITESPACE (txt " "); Leaf TK_BLOCK (txt "block"); Leaf TK_WHITESPACE (txt " "); Leaf TK_WORD (txt "inner"); Leaf TK_WHITESPACE (txt " "); Leaf TK_PERCENT_CURLY (txt "%}")]; Node BODY [Node HTML_TAG [Node HTML_STARTING_TAG [Leaf TK_LESS_THAN (txt "<"); Leaf TK_WORD (txt "span"); Node HTML_ATTRIBUTE_LIST []; Leaf TK_GREATER_THAN (txt ">")]; Node BODY [Node HTML_TEXT [Leaf TK_WORD (txt "hello")]]; Node HTML_ENDING_TAG [Node ERROR [Leaf TK_LESS_THAN_SLASH (txt "</"); Leaf TK_WORD (txt "div"); Leaf TK_GREATER_THAN (txt ">")]]]]; Node TWIG_ENDING_BLOCK []]]; Node HTML_ENDING_TAG []]],
   [txt "error at 33..35: expected </span> ending tag but found </"; txt "error at 38..39: expected {% or {%- or {%~ but reached end of file"; txt "error at 38..39: expected endblock but reached end of file"; txt "error at 38..39: expected %} or -%} or ~%} but reached end of file"; txt "error at 38..39: expected </div> ending tag but reached end of file"]).

(** grammar/html.rs:848 *)
Definition t_html_848 : ptest :=
  (txt "<div class="" my-class ""></div>",
   Node ROOT [Node HTML_TAG [Node HTML_STARTING_TAG [Leaf TK_LESS_THAN (txt "<"); Leaf TK_WORD (txt "div"); Node HTML_ATTRIBUTE_LIST [Node HTML_ATTRIBUTE [Leaf TK_WHITESPACE (txt " "); Leaf TK_WORD (txt "class"); Leaf TK_EQUAL (txt "="); Node HTML_STRING [Leaf TK_DOUBLE_QUOTES (txt """"); Node HTML_STRING_INNER [Leaf TK_WHITESPACE (txt " "); Leaf TK_WORD (txt "my-class"); Leaf TK_WHITESPACE (txt " ")]; Leaf TK_DOUBLE_QUOTES (txt """")]]]; Leaf TK_GREATER_THAN (txt ">")]; Node BODY []; Node HTML_ENDING_TAG [Leaf TK_LESS_THAN_SLASH (txt "</"); Leaf TK_WORD (txt "div"); Leaf TK_GREATER_THAN (txt ">")]]],
   []).

(** grammar/html.rs:879 *)
Definition t_html_879 : ptest :=
  (txt "<div class=""hello {{ twig }}""></div>",
   Node ROOT [Node HTML_TAG [Node HTML_STARTING_TAG [Leaf TK_LESS_THAN (txt "<"); Leaf TK_WORD (txt "div"); Node HTML_ATTRIBUTE_LIST [Node HTML_ATTRIBUTE [Leaf TK_WHITESPACE (txt " "); Leaf TK_WORD (txt "class"); Leaf TK_EQUAL (txt "="); Node HTML_STRING [Leaf TK_DOUBLE_QUOTES (txt """"); Node HTML_STRING_INNER [Leaf TK_WORD (txt "hello"); Node TWIG_VAR [Leaf TK_WHITESPACE (txt " "); Leaf TK_OPEN_CURLY_CURLY (txt "{{"); Node TWIG_EXPRESSION [Node TWIG_LITERAL_NAME [Leaf TK_WHITESPACE (txt " "); Leaf TK_WORD (txt "twig")]]; Leaf TK_WHITESPACE (txt " "); Leaf TK_CLOSE_CURLY_CURLY (txt "}}")]]; Leaf TK_DOUBLE_QUOTES (txt """")]]]; Leaf TK_GREATER_THAN (txt ">")]; Node BODY []; Node HTML_ENDING_TAG [Leaf TK_LESS_THAN_SLASH (txt "</"); Leaf TK_WORD (txt "div"); Leaf TK_GREATER_THAN (txt ">")]]],
   []).

(** grammar/html.rs:917 *)
Definition t_html_917 : ptest :=
  (txt "<div class=""{# hello twig #}""></div>",
   Node ROOT [Node HTML_TAG [Node HTML_STARTING_TAG [Leaf TK_LESS_THAN (txt "<"); Leaf TK_WORD (txt "div"); Node HTML_ATTRIBUTE_LIST [Node HTML_ATTRIBUTE [Leaf TK_WHITESPACE (txt " "); Leaf TK_WORD (txt "class"); Leaf TK_EQUAL (txt "="); Node HTML_STRING [Leaf TK_DOUBLE_QUOTES (txt """"); Node HTML_STRING_INNER [Node TWIG_COMMENT [Leaf TK_OPEN_CURLY_HASHTAG (txt "{#"); Leaf TK_WHITESPACE (txt " "); Leaf TK_WORD (txt "hello"); Leaf TK_WHITESPACE (txt " "); Leaf TK_WORD (txt "twig"); Leaf TK_WHITESPACE (txt " "); Leaf TK_HASHTAG_CLOSE_CURLY (txt "#}")]]; Leaf TK_DOUBLE_QUOTES (txt """")]]]; Leaf TK_GREATER_THAN (txt ">")]; Node BODY []; Node HTML_ENDING_TAG [Leaf TK_LESS_THAN_SLASH (txt "</"); Leaf TK_WORD (txt "div"); Leaf TK_GREATER_THAN (txt ">")]]],
   []).

(** grammar/html.rs:953 *)
Definition t_html_953 : ptest :=
  (txt "<div class=""hello {% block conditional %} twig {% endblock %}""></div>",
   Node ROOT [Node HTML_TAG [Node HTML_STARTING_TAG [Leaf TK_LESS_THAN (txt "<"); Leaf TK_WORD (txt "div"); Node HTML_ATTRIBUTE_LIST [Node HTML_ATTRIBUTE [Leaf TK_WHITESPACE (txt " "); Leaf TK_WORD (txt "class"); Leaf TK_EQUAL (txt "="); Node HTML_STRING [Leaf TK_DOUBLE_QUOTES (txt """"); Node HTML_STRING_INNER [Leaf TK_WORD (txt "hello"); Node TWIG_BLOCK [Node TWIG_STARTING_BLOCK [Leaf TK_WHITESPACE (txt " "); Leaf TK_CURLY_PERCENT (txt "{%"); Leaf TK_WHITESPACE (txt " "); Leaf TK_BLOCK (txt "block"); Leaf TK_WHITESPACE (txt " "); Leaf TK_WORD (txt "conditional"); Leaf TK_WHITESPACE (txt " "); Leaf TK_PERCENT_CURLY (txt "%}")]; Node BODY [Leaf TK_WHITESPACE (txt " "); Leaf TK_WORD (txt "twig")]; Node TWIG_ENDING_BLOCK [Leaf TK_WHITESPACE (txt " "); Leaf TK_CURLY_PERCENT (txt "{%"); Leaf TK_WHITESPACE (txt " "); Leaf TK_ENDBLOCK (txt "endblock"); Leaf TK_WHITESPACE (txt " "); Leaf TK_PERCENT_CURLY (txt "%}")]]]; Leaf TK_DOUBLE_QUOTES (txt """")]]]; Leaf TK_GREATER_THAN (txt ">")]; Node BODY []; Node HTML_ENDING_TAG [Leaf TK_LESS_THAN_SLASH (txt "</"); Leaf TK_WORD (txt "div"); Leaf TK_GREATER_THAN (txt ">")]]],
   []).

(** grammar/html.rs:1002 *)
Definition t_html_1002 : ptest :=
  (txt "<div class=""hello {% block outer %} outer {% block inner %} inner {% endblock %}{% endblock %}""></div>",
   Node ROOT [Node HTML_TAG [Node HTML_STARTING_TAG [Leaf TK_LESS_THAN (txt "<"); Leaf TK_WORD (txt "div"); Node HTML_ATTRIBUTE_LIST [Node HTML_ATTRIBUTE [Leaf TK_WHITESPACE (txt " "); Leaf TK_WORD (txt "class"); Leaf TK_EQUAL (txt "="); Node HTML_STRING [Leaf TK_DOUBLE_QUOTES (txt """"); Node HTML_STRING_INNER [Leaf TK_WORD (txt "hello"); Node TWIG_BLOCK [Node TWIG_STARTING_BLOCK [Leaf TK_WHITESPACE (txt " "); Leaf TK_CURLY_PERCENT (txt "{%"); Leaf TK_WHITESPACE (txt " "); Leaf TK_BLOCK (txt "block"); Leaf TK_WHITESPACE (txt " "); Leaf TK_WORD (txt "outer"); Leaf TK_WHITESPACE (txt " "); Leaf TK_PERCENT_CURLY (txt "%}")]; Node BODY [Leaf TK_WHITESPACE (txt " "); Leaf TK_WORD (txt "outer"); Node TWIG_BLOCK [Node TWIG_STARTING_BLOCK [Leaf TK_WHITESPACE (txt " "); Leaf TK_CURLY_PERCENT (txt "{%"); Leaf TK_WHITESPACE (txt " "); Leaf TK_BLOCK (txt "block"); Leaf TK_WHITESPACE (txt " "); Leaf TK_WORD (txt "inner"); Leaf TK_WHITESPACE (txt " "); Leaf TK_PERCENT_CURLY (txt "%}")]; Node BODY [Leaf TK_WHITESPACE (txt " "); Leaf TK_WORD (txt "inner")]; Node TWIG_ENDING_BLOCK [Leaf TK_WHITESPACE (txt " "); Leaf TK_CURLY_PERCENT (txt "{%"); Leaf TK_WHITESPACE (txt " "); Leaf TK_ENDBLOCK (txt "endblock"); Leaf TK_WHITESPACE (txt " "); Leaf TK_PERCENT_CURLY (txt "%}")]]]; Node TWIG_ENDING_BLOCK [Leaf TK_CURLY_PERCENT (txt "{%"); Leaf TK_WHITESPACE (txt " "); Leaf TK_ENDBLOCK (txt "endblock"); Leaf TK_WHITESPACE (txt " "); Leaf TK_PERCENT_CURLY (txt "%}")]]]; Leaf TK_DOUBLE_QUOTES (txt """")]]]; Leaf TK_GREATER_THAN (txt ">")]; Node BODY []; Node HTML_ENDING_TAG [Leaf TK_LESS_THAN_SLASH (txt "</"); Leaf TK_WORD (txt "div"); Leaf TK_GREATER_THAN (txt ">")]]],
   []).

(** grammar/html.rs:1070 *)
Definition t_html_1070 : ptest :=
  (txt "<div class=""hello {% if A > B %} greater {% elseif A == B %} equal {% else %} less {% endif %}""></div>",
   Node ROOT [Node HTML_TAG [Node HTML_STARTING_TAG [Leaf TK_LESS_THAN (txt "<"); Leaf TK_WORD (txt "div"); Node HTML_ATTRIBUTE_LIST [Node HTML_ATTRIBUTE [Leaf TK_WHITESPACE (txt " "); Leaf TK_WORD (txt "class"); Leaf TK_EQUAL (txt "="); Node HTML_STRING [Leaf TK_DOUBLE_QUOTES (txt """"); Node HTML_STRING_INNER [Leaf TK_WORD (txt "hello"); Node TWIG_IF [Node TWIG_IF_BLOCK [Leaf TK_WHITESPACE (txt " "); Leaf TK_CURLY_PERCENT (txt "{%"); Leaf TK_WHITESPACE (txt " "); Leaf TK_IF (txt "if"); Node TWIG_EXPRESSION [Node TWIG_BINARY_EXPRESSION [Node TWIG_EXPRESSION [Node TWIG_LITERAL_NAME [Leaf TK_WHITESPACE (txt " "); Leaf TK_WORD (txt "A")]]; Leaf TK_WHITESPACE (txt " "); Leaf TK_GREATER_THAN (txt ">"); Node TWIG_EXPRESSION [Node TWIG_LITERAL_NAME [Leaf TK_WHITESPACE (txt " "); Leaf TK_WORD (txt "B")]]]]; Leaf TK_WHITESPACE (txt " "); Leaf TK_PERCENT_CURLY (txt "%}")]; Node BODY [Leaf TK_WHITESPACE (txt " "); Leaf TK_WORD (txt "greater")]; Node TWIG_ELSE_IF_BLOCK [Leaf TK_WHITESPACE (txt " "); Leaf TK_CURLY_PERCENT (txt "{%"); Leaf TK_WHITESPACE (txt " "); Leaf TK_ELSE_IF (txt "elseif"); Node TWIG_EXPRESSION [Node TWIG_BINARY_EXPRESSION [Node TWIG_EXPRESSION [Node TWIG_LITERAL_NAME [Leaf TK_WHITESPACE (txt " "); Leaf TK_WORD (txt "A")]]; Leaf TK_WHITESPACE (txt " "); Leaf TK_DOUBLE_EQUAL (txt "=="); Node TWIG_EXPRESSION [Node TWIG_LITERAL_NAME [Leaf TK_WHITESPACE (txt " "); Leaf TK_WORD (txt "B")]]]]; Leaf TK_WHITESPACE (txt " "); Leaf TK_PERCENT_CURLY (txt "%}")]; Node BODY [Leaf TK_WHITESPACE (txt " "); Leaf TK_WORD (txt "equal")]; Node TWIG_ELSE_BLOCK [Leaf TK_WHITESPACE (txt " "); Leaf TK_CURLY_PERCENT (txt "{%"); Leaf TK_WHITESPACE (txt " "); Leaf TK_ELSE (txt "else"); Leaf TK_WHITESPACE (txt " "); Leaf TK_PERCENT_CURLY (txt "%}")]; Node BODY [Leaf TK_WHITESPACE (txt " "); Leaf TK_WORD (txt "less")]; Node TWIG_ENDIF_BLOCK [Leaf TK_WHITESPACE (txt " "); Leaf TK_CURLY_PERCENT (txt "{%"); Leaf TK_WHITESPACE (txt " "); Leaf TK_ENDIF (txt "endif"); Leaf TK_WHITESPACE (txt " "); Leaf TK_PERCENT_CURLY (txt "%}")]]]; Leaf TK_DOUBLE_QUOTES (txt """")]]]; Leaf TK_GREATER_THAN (txt ">")]; Node BODY []; Node HTML_ENDING_TAG [Leaf TK_LESS_THAN_SLASH (txt "</"); Leaf TK_WORD (txt "div"); Leaf TK_GREATER_THAN (txt ">")]]],
   []).

(** grammar/html.rs:1161 *)
Definition t_html_1161 : ptest :=
  (txt "<div claSs='my-div'>
        hello world
    </div>",
   Node ROOT [Node HTML_TAG [Node HTML_STARTING_TAG [Leaf TK_LESS_THAN (txt "<"); Leaf TK_WORD (txt "div"); Node HTML_ATTRIBUTE_LIST [Node HTML_ATTRIBUTE [Leaf TK_WHITESPACE (txt " "); Leaf TK_WORD (txt "claSs"); Leaf TK_EQUAL (txt "="); Node HTML_STRING [Leaf TK_SINGLE_QUOTES (txt "'"); Node HTML_STRING_INNER [Leaf TK_WORD (txt "my-div")]; Leaf TK_SINGLE_QUOTES (txt "'")]]]; Leaf TK_GREATER_THAN (txt ">")]; Node BODY [Node HTML_TEXT [Leaf TK_LINE_BREAK (txt "
"); Leaf TK_WHITESPACE (txt "        "); Leaf TK_WORD (txt "hello"); Leaf TK_WHITESPACE (txt " "); Leaf TK_WORD (txt "world")]]; Node HTML_ENDING_TAG [Leaf TK_LINE_BREAK (txt "
"); Leaf TK_WHITESPACE (txt "    "); Leaf TK_LESS_THAN_SLASH (txt "</"); Leaf TK_WORD (txt "div"); Leaf TK_GREATER_THAN (txt ">")]]],
   []).

(** grammar/html.rs:1200 *)
Definition t_html_1200 : ptest :=
  (txt "<div claSs='my-div>
        hello world
    </div>",
   Node ROOT [Node HTML_TAG [Node HTML_STARTING_TAG [Leaf TK_LESS_THAN (txt "<"); Leaf TK_WORD (txt "div"); Node HTML_ATTRIBUTE_LIST [Node HTML_ATTRIBUTE [Leaf TK_WHITESPACE (txt " "); Leaf TK_WORD (txt "claSs"); Leaf TK_EQUAL (txt "="); Node HTML_STRING [Leaf TK_SINGLE_QUOTES (txt "'"); Node HTML_STRING_INNER [Leaf TK_WORD (txt "my-div")]]]]; Leaf TK_GREATER_THAN (txt ">")]; Node BODY [Node HTML_TEXT [Leaf TK_LINE_BREAK (txt "
"); Leaf TK_WHITESPACE (txt "        "); Leaf TK_WORD (txt "hello"); Leaf TK_WHITESPACE (txt " "); Leaf TK_WORD (txt "world")]]; Node HTML_ENDING_TAG [Leaf TK_LINE_BREAK (txt "
"); Leaf TK_WHITESPACE (txt "    "); Leaf TK_LESS_THAN_SLASH (txt "</"); Leaf TK_WORD (txt "div"); Leaf TK_GREATER_THAN (txt ">")]]],
   [txt "error at 18..19: expected ' but found >"]).

(** grammar/html.rs:1239 *)
Definition t_html_1239 : ptest :=
  (txt "<div claSs=my-div'>
        hello world
    </div>",
   Node ROOT [Node HTML_TAG [Node HTML_STARTING_TAG [Leaf TK_LESS_THAN (txt "<"); Leaf TK_WORD (txt "div"); Node HTML_ATTRIBUTE_LIST [Node HTML_ATTRIBUTE [Leaf TK_WHITESPACE (txt " "); Leaf TK_WORD (txt "claSs"); Leaf TK_EQUAL (txt "="); Node HTML_STRING [Node HTML_STRING_INNER [Leaf TK_WORD (txt "my-div")]; Node ERROR [Leaf TK_SINGLE_QUOTES (txt "'")]]]]; Leaf TK_GREATER_THAN (txt ">")]; Node BODY [Node HTML_TEXT [Leaf TK_LINE_BREAK (txt "
"); Leaf TK_WHITESPACE (txt "        "); Leaf TK_WORD (txt "hello"); Leaf TK_WHITESPACE (txt " "); Leaf TK_WORD (txt "world")]]; Node HTML_ENDING_TAG [Leaf TK_LINE_BREAK (txt "
"); Leaf TK_WHITESPACE (txt "    "); Leaf TK_LESS_THAN_SLASH (txt "</"); Leaf TK_WORD (txt "div"); Leaf TK_GREATER_THAN (txt ">")]]],
   [txt "error at 17..18: expected no trailing quote because there is no leading quote but found '"]).

(** grammar/html.rs:1279 *)
Definition t_html_1279 : ptest :=
  (txt "<div claSs=""my-div required>
        hello world
    </div>",
   Node ROOT [Node HTML_TAG [Node HTML_STARTING_TAG [Leaf TK_LESS_THAN (txt "<"); Leaf TK_WORD (txt "div"); Node HTML_ATTRIBUTE_LIST [Node HTML_ATTRIBUTE [Leaf TK_WHITESPACE (txt " "); Leaf TK_WORD (txt "claSs"); Leaf TK_EQUAL (txt "="); Node HTML_STRING [Leaf TK_DOUBLE_QUOTES (txt """"); Node HTML_STRING_INNER [Leaf TK_WORD (txt "my-div"); Leaf TK_WHITESPACE (txt " "); Leaf TK_WORD (txt "required")]]]]; Leaf TK_GREATER_THAN (txt ">")]; Node BODY [Node HTML_TEXT [Leaf TK_LINE_BREAK (txt "
"); Leaf TK_WHITESPACE (txt "        "); Leaf TK_WORD (txt "hello"); Leaf TK_WHITESPACE (txt " "); Leaf TK_WORD (txt "world")]]; Node HTML_ENDING_TAG [Leaf TK_LINE_BREAK (txt "
"); Leaf TK_WHITESPACE (txt "    "); Leaf TK_LESS_THAN_SLASH (txt "</"); Leaf TK_WORD (txt "div"); Leaf TK_GREATER_THAN (txt ">")]]],
   [txt "error at 27..28: expected "" but found >"]).

(** grammar/html.rs:1320 *)
Definition t_html_1320 : ptest :=
  (txt "<div claSs=my-div"" required>
        hello world
    </div>",
   Node ROOT [Node HTML_TAG [Node HTML_STARTING_TAG [Leaf TK_LESS_THAN (txt "<"); Leaf TK_WORD (txt "div"); Node HTML_ATTRIBUTE_LIST [Node HTML_ATTRIBUTE [Leaf TK_WHITESPACE (txt " "); Leaf TK_WORD (txt "claSs"); Leaf TK_EQUAL (txt "="); Node HTML_STRING [Node HTML_STRING_INNER [Leaf TK_WORD (txt "my-div")]; Node ERROR [Leaf TK_DOUBLE_QUOTES (txt """")]]]; Node HTML_ATTRIBUTE [Leaf TK_WHITESPACE (txt " "); Leaf TK_WORD (txt "required")]]; Leaf TK_GREATER_THAN (txt ">")]; Node BODY [Node HTML_TEXT [Leaf TK_LINE_BREAK (txt "
"); Leaf TK_WHITESPACE (txt "        "); Leaf TK_WORD (txt "hello"); Leaf TK_WHITESPACE (txt " "); Leaf TK_WORD (txt "world")]]; Node HTML_ENDING_TAG [Leaf TK_LINE_BREAK (txt "
"); Leaf TK_WHITESPACE (txt "    "); Leaf TK_LESS_THAN_SLASH (txt "</"); Leaf TK_WORD (txt "div"); Leaf TK_GREATER_THAN (txt ">")]]],
   [txt "error at 17..18: expected no trailing quote because there is no leading quote but found """]).

(** grammar/html.rs:1363 *)
Definition t_html_1363 : ptest :=
  (txt "<div claSs=my-div required>
        hello world
    </div>",
   Node ROOT [Node HTML_TAG [Node HTML_STARTING_TAG [Leaf TK_LESS_THAN (txt "<"); Leaf TK_WORD (txt "div"); Node HTML_ATTRIBUTE_LIST [Node HTML_ATTRIBUTE [Leaf TK_WHITESPACE (txt " "); Leaf TK_WORD (txt "claSs"); Leaf TK_EQUAL (txt "="); Node HTML_STRING [Node HTML_STRING_INNER [Leaf TK_WORD (txt "my-div")]]]; Node HTML_ATTRIBUTE [Leaf TK_WHITESPACE (txt " "); Leaf TK_WORD (txt "required")]]; Leaf TK_GREATER_THAN (txt ">")]; Node BODY [Node HTML_TEXT [Leaf TK_LINE_BREAK (txt "
"); Leaf TK_WHITESPACE (txt "        "); Leaf TK_WORD (txt "hello"); Leaf TK_WHITESPACE (txt " "); Leaf TK_WORD (txt "world")]]; Node HTML_ENDING_TAG [Leaf TK_LINE_BREAK (txt "
"); Leaf TK_WHITESPACE (txt "    "); Leaf TK_LESS_THAN_SLASH (txt "</"); Leaf TK_WORD (txt "div"); Leaf TK_GREATER_THAN (txt ">")]]],
   []).

(** grammar/html.rs:1403 *)
Definition t_html_1403 : ptest :=
  (txt "<!-- this is a comment --> this not <!-- but this again -->",
   Node ROOT [Node HTML_COMMENT [Leaf TK_LESS_THAN_EXCLAMATION_MARK_MINUS_MINUS (txt "<!--"); Leaf TK_WHITESPACE (txt " "); Leaf TK_WORD (txt "this"); Leaf TK_WHITESPACE (txt " "); Leaf TK_IS (txt "is"); Leaf TK_WHITESPACE (txt " "); Leaf TK_WORD (txt "a"); Leaf TK_WHITESPACE (txt " "); Leaf TK_WORD (txt "comment"); Leaf TK_WHITESPACE (txt " "); Leaf TK_MINUS_MINUS_GREATER_THAN (txt "-->")]; Node HTML_TEXT [Leaf TK_WHITESPACE (txt " "); Leaf TK_WORD (txt "this"); Leaf TK_WHITESPACE (txt " "); Leaf TK_NOT (txt "not")]; Node HTML_COMMENT [Leaf TK_WHITESPACE (txt " "); Leaf TK_LESS_THAN_EXCLAMATION_MARK_MINUS_MINUS (txt "<!--"); Leaf TK_WHITESPACE (txt " "); Leaf TK_WORD (txt "but"); Leaf TK_WHITESPACE (txt " "); Leaf TK_WORD (txt "this"); Leaf TK_WHITESPACE (txt " "); Leaf TK_WORD (txt "again"); Leaf TK_WHITESPACE (txt " "); Leaf TK_MINUS_MINUS_GREATER_THAN (txt "-->")]],
   []).

(** grammar/html.rs:1440 *)
Definition t_html_1440 : ptest :=
  (txt "<hr/>plain<img/>text<custom/>",
   Node ROOT [Node HTML_TAG [Node HTML_STARTING_TAG [Leaf TK_LESS_THAN (txt "<"); Leaf TK_WORD (txt "hr"); Node HTML_ATTRIBUTE_LIST []; Leaf TK_SLASH_GREATER_THAN (txt "/>")]]; Node HTML_TEXT [Leaf TK_WORD (txt "plain")]; Node HTML_TAG [Node HTML_STARTING_TAG [Leaf TK_LESS_THAN (txt "<"); Leaf TK_WORD (txt "img"); Node HTML_ATTRIBUTE_LIST []; Leaf TK_SLASH_GREATER_THAN (txt "/>")]]; Node HTML_TEXT [Leaf TK_WORD (txt "text")]; Node HTML_TAG [Node HTML_STARTING_TAG [Leaf TK_LESS_THAN (txt "<"); Leaf TK_WORD (txt "custom"); Node HTML_ATTRIBUTE_LIST []; Leaf TK_SLASH_GREATER_THAN (txt "/>")]]],
   []).

(** grammar/html.rs:1471 *)
Definition t_html_1471 : ptest :=
  (txt "<div class=""hello"" {{ twig }}></div>",
   Node ROOT [Node HTML_TAG [Node HTML_STARTING_TAG [Leaf TK_LESS_THAN (txt "<"); Leaf TK_WORD (txt "div"); Node HTML_ATTRIBUTE_LIST [Node HTML_ATTRIBUTE [Leaf TK_WHITESPACE (txt " "); Leaf TK_WORD (txt "class"); Leaf TK_EQUAL (txt "="); Node HTML_STRING [Leaf TK_DOUBLE_QUOTES (txt """"); Node HTML_STRING_INNER [Leaf TK_WORD (txt "hello")]; Leaf TK_DOUBLE_QUOTES (txt """")]]; Node HTML_ATTRIBUTE [Node TWIG_VAR [Leaf TK_WHITESPACE (txt " "); Leaf TK_OPEN_CURLY_CURLY (txt "{{"); Node TWIG_EXPRESSION [Node TWIG_LITERAL_NAME [Leaf TK_WHITESPACE (txt " "); Leaf TK_WORD (txt "twig")]]; Leaf TK_WHITESPACE (txt " "); Leaf TK_CLOSE_CURLY_CURLY (txt "}}")]]]; Leaf TK_GREATER_THAN (txt ">")]; Node BODY []; Node HTML_ENDING_TAG [Leaf TK_LESS_THAN_SLASH (txt "</"); Leaf TK_WORD (txt "div"); Leaf TK_GREATER_THAN (txt ">")]]],
   []).

(** grammar/html.rs:1510 *)
Definition t_html_1510 : ptest :=
  (txt "<div {# class=""hello"" #}></div>",
   Node ROOT [Node HTML_TAG [Node HTML_STARTING_TAG [Leaf TK_LESS_THAN (txt "<"); Leaf TK_WORD (txt "div"); Node HTML_ATTRIBUTE_LIST [Node TWIG_COMMENT [Leaf TK_WHITESPACE (txt " "); Leaf TK_OPEN_CURLY_HASHTAG (txt "{#"); Leaf TK_WHITESPACE (txt " "); Leaf TK_WORD (txt "class"); Leaf TK_EQUAL (txt "="); Leaf TK_DOUBLE_QUOTES (txt """"); Leaf TK_WORD (txt "hello"); Leaf TK_DOUBLE_QUOTES (txt """"); Leaf TK_WHITESPACE (txt " "); Leaf TK_HASHTAG_CLOSE_CURLY (txt "#}")]]; Leaf TK_GREATER_THAN (txt ">")]; Node BODY []; Node HTML_ENDING_TAG [Leaf TK_LESS_THAN_SLASH (txt "</"); Leaf TK_WORD (txt "div"); Leaf TK_GREATER_THAN (txt ">")]]],
   []).

(** grammar/html.rs:1541 *)
Definition t_html_1541 : ptest :=
  (txt "<div {% block conditional %} class=""hello"" {% endblock %}></div>",
   Node ROOT [Node HTML_TAG [Node HTML_STARTING_TAG [Leaf TK_LESS_THAN (txt "<"); Leaf TK_WORD (txt "div"); Node HTML_ATTRIBUTE_LIST [Node TWIG_BLOCK [Node TWIG_STARTING_BLOCK [Leaf TK_WHITESPACE (txt " "); Leaf TK_CURLY_PERCENT (txt "{%"); Leaf TK_WHITESPACE (txt " "); Leaf TK_BLOCK (txt "block"); Leaf TK_WHITESPACE (txt " "); Leaf TK_WORD (txt "conditional"); Leaf TK_WHITESPACE (txt " "); Leaf TK_PERCENT_CURLY (txt "%}")]; Node BODY [Node HTML_ATTRIBUTE [Leaf TK_WHITESPACE (txt " "); Leaf TK_WORD (txt "class"); Leaf TK_EQUAL (txt "="); Node HTML_STRING [Leaf TK_DOUBLE_QUOTES (txt """"); Node HTML_STRING_INNER [Leaf TK_WORD (txt "hello")]; Leaf TK_DOUBLE_QUOTES (txt """")]]]; Node TWIG_ENDING_BLOCK [Leaf TK_WHITESPACE (txt " "); Leaf TK_CURLY_PERCENT (txt "{%"); Leaf TK_WHITESPACE (txt " "); Leaf TK_ENDBLOCK (txt "endblock"); Leaf TK_WHITESPACE (txt " "); Leaf TK_PERCENT_CURLY (txt "%}")]]]; Leaf TK_GREATER_THAN (txt ">")]; Node BODY []; Node HTML_ENDING_TAG [Leaf TK_LESS_THAN_SLASH (txt "</"); Leaf TK_WORD (txt "div"); Leaf TK_GREATER_THAN (txt ">")]]],
   []).

(** grammar/html.rs:1588 *)
Definition t_html_1588 : ptest :=
  (txt "<div {% block conditional %} <hr/> {% endblock %}></div>",
   Node ROOT [Node HTML_TAG [Node HTML_STARTING_TAG [Leaf TK_LESS_THAN (txt "<"); Leaf TK_WORD (txt "div"); Node HTML_ATTRIBUTE_LIST [Node TWIG_BLOCK [Node TWIG_STARTING_BLOCK [Leaf TK_WHITESPACE (txt " "); Leaf TK_CURLY_PERCENT (txt "{%"); Leaf TK_WHITESPACE (txt " "); Leaf TK_BLOCK (txt "block"); Leaf TK_WHITESPACE (txt " "); Leaf TK_WORD (txt "conditional"); Leaf TK_WHITESPACE (txt " "); Leaf TK_PERCENT_CURLY (txt "%}")]; Node BODY []; Node TWIG_ENDING_BLOCK []]]]; Node BODY [Node HTML_TAG [Node HTML_STARTING_TAG [Leaf TK_WHITESPACE (txt " "); Leaf TK_LESS_THAN (txt "<"); Leaf TK_WORD (txt "hr"); Node HTML_ATTRIBUTE_LIST []; Leaf TK_SLASH_GREATER_THAN (txt "/>")]]]; Node HTML_ENDING_TAG []]; Node ERROR [Leaf TK_WHITESPACE (txt " "); Leaf TK_CURLY_PERCENT (txt "{%")]; Node HTML_TEXT [Leaf TK_WHITESPACE (txt " "); Leaf TK_ENDBLOCK (txt "endblock"); Leaf TK_WHITESPACE (txt " "); Leaf TK_PERCENT_CURLY (txt "%}"); Leaf TK_GREATER_THAN (txt ">")]; Node ERROR [Leaf TK_LESS_THAN_SLASH (txt "</"); Leaf TK_WORD (txt "div"); Leaf TK_GREATER_THAN (txt ">")]],
   [txt "error at 29..30: expected {% or {%- or {%~ but found <"; txt "error at 29..30: expected endblock but found <"; txt "error at 29..30: expected %} or -%} or ~%} but found <"; txt "error at 29..30: expected > but found <"; txt "error at 35..37: expected </div> ending tag but found {%"; txt "error at 38..46: expected twig tag but found endblock"; txt "error at 50..52: expected html, text or twig element but found </"]).

(** grammar/html.rs:1643 *)
Definition t_html_1643 : ptest :=
  (txt "<div {% block outer %} class=""hello"" {% block inner %} style=""color: black"" {% endblock %}{% endblock %}></div>",
   Node ROOT [Node HTML_TAG [Node HTML_STARTING_TAG [Leaf TK_LESS_THAN (txt "<"); Leaf TK_WORD (txt "div"); Node HTML_ATTRIBUTE_LIST [Node TWIG_BLOCK [Node TWIG_STARTING_BLOCK [Leaf TK_WHITESPACE (txt " "); Leaf TK_CURLY_PERCENT (txt "{%"); Leaf TK_WHITESPACE (txt " "); Leaf TK_BLOCK (txt "block"); Leaf TK_WHITESPACE (txt " "); Leaf TK_WORD (txt "outer"); Leaf TK_WHITESPACE (txt " "); Leaf TK_PERCENT_CURLY (txt "%}")]; Node BODY [Node HTML_ATTRIBUTE [Leaf TK_WHITESPACE (txt " "); Leaf TK_WORD (txt "class"); Leaf TK_EQUAL (txt "="); Node HTML_STRING [Leaf TK_DOUBLE_QUOTES (txt """"); Node HTML_STRING_INNER [Leaf TK_WORD (txt "hello")]; Leaf TK_DOUBLE_QUOTES (txt """")]]; Node TWIG_BLOCK [Node TWIG_STARTING_BLOCK [Leaf TK_WHITESPACE (txt " "); Leaf TK_CURLY_PERCENT (txt "{%"); Leaf TK_WHITESPACE (txt " "); Leaf TK_BLOCK (txt "block"); Leaf TK_WHITESPACE (txt " "); Leaf TK_WORD (txt "inner"); Leaf TK_WHITESPACE (txt " "); Leaf TK_PERCENT_CURLY (txt "%}")]; Node BODY [Node HTML_ATTRIBUTE [Leaf TK_WHITESPACE (txt " "); Leaf TK_WORD (txt "style"); Leaf TK_EQUAL (txt "="); Node HTML_STRING [Leaf TK_DOUBLE_QUOTES (txt """"); Node HTML_STRING_INNER [Leaf TK_WORD (txt "color"); Leaf TK_COLON (txt ":"); Leaf TK_WHITESPACE (txt " "); Leaf TK_WORD (txt "black")]; Leaf TK_DOUBLE_QUOTES (txt """")]]]; Node TWIG_ENDING_BLOCK [Leaf TK_WHITESPACE (txt " "); Leaf TK_CURLY_PERCENT (txt "{%"); Leaf TK_WHITESPACE (txt " "); Leaf TK_ENDBLOCK (txt "endblock"); Leaf TK_WHITESPACE (txt " "); Leaf TK_PERCENT_CURLY (txt "%}")]]]; Node TWIG_ENDING_BLOCK [Leaf TK_CURLY_PERCENT (txt "{%"); Leaf TK_WHITESPACE (txt " "); Leaf TK_ENDBLOCK (txt "endblock"); Leaf TK_WHITESPACE (txt " "); Leaf TK_PERCENT_CURLY (txt "%}")]]]; Leaf TK_GREATER_THAN (txt ">")]; Node BODY []; Node HTML_ENDING_TAG [Leaf TK_LESS_THAN_SLASH (txt "</"); Leaf TK_WORD (txt "div"); Leaf TK_GREATER_THAN (txt ">")]]],
   []).

(** grammar/html.rs:1719 *)
Definition t_html_1719 : ptest :=
  (txt "<label class=""form-label"" for=""personalMail"">
    hello
</label>",
   Node ROOT [Node HTML_TAG [Node HTML_STARTING_TAG [Leaf TK_LESS_THAN (txt "<"); Leaf TK_WORD (txt "label"); Node HTML_ATTRIBUTE_LIST [Node HTML_ATTRIBUTE [Leaf TK_WHITESPACE (txt " "); Leaf TK_WORD (txt "class"); Leaf TK_EQUAL (txt "="); Node HTML_STRING [Leaf TK_DOUBLE_QUOTES (txt """"); Node HTML_STRING_INNER [Leaf TK_WORD (txt "form-label")]; Leaf TK_DOUBLE_QUOTES (txt """")]]; Node HTML_ATTRIBUTE [Leaf TK_WHITESPACE (txt " "); Leaf TK_WORD (txt "for"); Leaf TK_EQUAL (txt "="); Node HTML_STRING [Leaf TK_DOUBLE_QUOTES (txt """"); Node HTML_STRING_INNER [Leaf TK_WORD (txt "personalMail")]; Leaf TK_DOUBLE_QUOTES (txt """")]]]; Leaf TK_GREATER_THAN (txt ">")]; Node BODY [Node HTML_TEXT [Leaf TK_LINE_BREAK (txt "
"); Leaf TK_WHITESPACE (txt "    "); Leaf TK_WORD (txt "hello")]]; Node HTML_ENDING_TAG [Leaf TK_LINE_BREAK (txt "
"); Leaf TK_LESS_THAN_SLASH (txt "</"); Leaf TK_WORD (txt "label"); Leaf TK_GREATER_THAN (txt ">")]]],
   []).

(** grammar/html.rs:1764 *)
Definition t_html_1764 : ptest :=
  (txt "<div {{ dataBsDismissAttr }}=""modal"">hello</div>",
   Node ROOT [Node HTML_TAG [Node HTML_STARTING_TAG [Leaf TK_LESS_THAN (txt "<"); Leaf TK_WORD (txt "div"); Node HTML_ATTRIBUTE_LIST [Node HTML_ATTRIBUTE [Node TWIG_VAR [Leaf TK_WHITESPACE (txt " "); Leaf TK_OPEN_CURLY_CURLY (txt "{{"); Node TWIG_EXPRESSION [Node TWIG_LITERAL_NAME [Leaf TK_WHITESPACE (txt " "); Leaf TK_WORD (txt "dataBsDismissAttr")]]; Leaf TK_WHITESPACE (txt " "); Leaf TK_CLOSE_CURLY_CURLY (txt "}}")]; Leaf TK_EQUAL (txt "="); Node HTML_STRING [Leaf TK_DOUBLE_QUOTES (txt """"); Node HTML_STRING_INNER [Leaf TK_WORD (txt "modal")]; Leaf TK_DOUBLE_QUOTES (txt """")]]]; Leaf TK_GREATER_THAN (txt ">")]; Node BODY [Node HTML_TEXT [Leaf TK_WORD (txt "hello")]]; Node HTML_ENDING_TAG [Leaf TK_LESS_THAN_SLASH (txt "</"); Leaf TK_WORD (txt "div"); Leaf TK_GREATER_THAN (txt ">")]]],
   []).

(** grammar/html.rs:1803 *)
Definition t_html_1803 : ptest :=
  (txt "<div {{ dataBsTargetAttr }}=""#{{ filterItemId }}"">hello</div>",
   Node ROOT [Node HTML_TAG [Node HTML_STARTING_TAG [Leaf TK_LESS_THAN (txt "<"); Leaf TK_WORD (txt "div"); Node HTML_ATTRIBUTE_LIST [Node HTML_ATTRIBUTE [Node TWIG_VAR [Leaf TK_WHITESPACE (txt " "); Leaf TK_OPEN_CURLY_CURLY (txt "{{"); Node TWIG_EXPRESSION [Node TWIG_LITERAL_NAME [Leaf TK_WHITESPACE (txt " "); Leaf TK_WORD (txt "dataBsTargetAttr")]]; Leaf TK_WHITESPACE (txt " "); Leaf TK_CLOSE_CURLY_CURLY (txt "}}")]; Leaf TK_EQUAL (txt "="); Node HTML_STRING [Leaf TK_DOUBLE_QUOTES (txt """"); Node HTML_STRING_INNER [Leaf TK_HASHTAG (txt "#"); Node TWIG_VAR [Leaf TK_OPEN_CURLY_CURLY (txt "{{"); Node TWIG_EXPRESSION [Node TWIG_LITERAL_NAME [Leaf TK_WHITESPACE (txt " "); Leaf TK_WORD (txt "filterItemId")]]; Leaf TK_WHITESPACE (txt " "); Leaf TK_CLOSE_CURLY_CURLY (txt "}}")]]; Leaf TK_DOUBLE_QUOTES (txt """")]]]; Leaf TK_GREATER_THAN (txt ">")]; Node BODY [Node HTML_TEXT [Leaf TK_WORD (txt "hello")]]; Node HTML_ENDING_TAG [Leaf TK_LESS_THAN_SLASH (txt "</"); Leaf TK_WORD (txt "div"); Leaf TK_GREATER_THAN (txt ">")]]],
   []).

(** grammar/html.rs:1849 *)
Definition t_html_1849 : ptest :=
  (txt "<div claSs={{ my_class }}>
        hello world
    </div>",
   Node ROOT [Node HTML_TAG [Node HTML_STARTING_TAG [Leaf TK_LESS_THAN (txt "<"); Leaf TK_WORD (txt "div"); Node HTML_ATTRIBUTE_LIST [Node HTML_ATTRIBUTE [Leaf TK_WHITESPACE (txt " "); Leaf TK_WORD (txt "claSs"); Leaf TK_EQUAL (txt "="); Node HTML_STRING [Node HTML_STRING_INNER [Node TWIG_VAR [Leaf TK_OPEN_CURLY_CURLY (txt "{{"); Node TWIG_EXPRESSION [Node TWIG_LITERAL_NAME [Leaf TK_WHITESPACE (txt " "); Leaf TK_WORD (txt "my_class")]]; Leaf TK_WHITESPACE (txt " "); Leaf TK_CLOSE_CURLY_CURLY (txt "}}")]]]]]; Leaf TK_GREATER_THAN (txt ">")]; Node BODY [Node HTML_TEXT [Leaf TK_LINE_BREAK (txt "
"); Leaf TK_WHITESPACE (txt "        "); Leaf TK_WORD (txt "hello"); Leaf TK_WHITESPACE (txt " "); Leaf TK_WORD (txt "world")]]; Node HTML_ENDING_TAG [Leaf TK_LINE_BREAK (txt "
"); Leaf TK_WHITESPACE (txt "    "); Leaf TK_LESS_THAN_SLASH (txt "</"); Leaf TK_WORD (txt "div"); Leaf TK_GREATER_THAN (txt ">")]]],
   []).

(** grammar/html.rs:1893 *)
Definition t_html_1893 : ptest :=
  (txt "<input type=""submit"" value=""Submit"">",
   Node ROOT [Node HTML_TAG [Node HTML_STARTING_TAG [Leaf TK_LESS_THAN (txt "<"); Leaf TK_WORD (txt "input"); Node HTML_ATTRIBUTE_LIST [Node HTML_ATTRIBUTE [Leaf TK_WHITESPACE (txt " "); Leaf TK_WORD (txt "type"); Leaf TK_EQUAL (txt "="); Node HTML_STRING [Leaf TK_DOUBLE_QUOTES (txt """"); Node HTML_STRING_INNER [Leaf TK_WORD (txt "submit")]; Leaf TK_DOUBLE_QUOTES (txt """")]]; Node HTML_ATTRIBUTE [Leaf TK_WHITESPACE (txt " "); Leaf TK_WORD (txt "value"); Leaf TK_EQUAL (txt "="); Node HTML_STRING [Leaf TK_DOUBLE_QUOTES (txt """"); Node HTML_STRING_INNER [Leaf TK_WORD (txt "Submit")]; Leaf TK_DOUBLE_QUOTES (txt """")]]]; Leaf TK_GREATER_THAN (txt ">")]]],
   []).

(** grammar/html.rs:1926 *)
Definition t_html_1926 : ptest :=
  (txt "<hr/>",
   Node ROOT [Node HTML_TAG [Node HTML_STARTING_TAG [Leaf TK_LESS_THAN (txt "<"); Leaf TK_WORD (txt "hr"); Node HTML_ATTRIBUTE_LIST []; Leaf TK_SLASH_GREATER_THAN (txt "/>")]]],
   []).

(** grammar/html.rs:1941 *)
Definition t_html_1941 : ptest :=
  (txt "<input type=""submit"" value=""Submit"">hello</input>",
   Node ROOT [Node HTML_TAG [Node HTML_STARTING_TAG [Leaf TK_LESS_THAN (txt "<"); Leaf TK_WORD (txt "input"); Node HTML_ATTRIBUTE_LIST [Node HTML_ATTRIBUTE [Leaf TK_WHITESPACE (txt " "); Leaf TK_WORD (txt "type"); Leaf TK_EQUAL (txt "="); Node HTML_STRING [Leaf TK_DOUBLE_QUOTES (txt """"); Node HTML_STRING_INNER [Leaf TK_WORD (txt "submit")]; Leaf TK_DOUBLE_QUOTES (txt """")]]; Node HTML_ATTRIBUTE [Leaf TK_WHITESPACE (txt " "); Leaf TK_WORD (txt "value"); Leaf TK_EQUAL (txt "="); Node HTML_STRING [Leaf TK_DOUBLE_QUOTES (txt """"); Node HTML_STRING_INNER [Leaf TK_WORD (txt "Submit")]; Leaf TK_DOUBLE_QUOTES (txt """")]]]; Leaf TK_GREATER_THAN (txt ">")]]; Node HTML_TEXT [Leaf TK_WORD (txt "hello")]; Node ERROR [Leaf TK_LESS_THAN_SLASH (txt "</"); Leaf TK_WORD (txt "input"); Leaf TK_GREATER_THAN (txt ">")]],
   [txt "error at 41..43: expected html, text or twig element but found </"]).

(** grammar/html.rs:1981 *)
Definition t_html_1981 : ptest :=
  (txt "<d a={%%",
   Node ROOT [Node HTML_TAG [Node HTML_STARTING_TAG [Leaf TK_LESS_THAN (txt "<"); Leaf TK_WORD (txt "d"); Node HTML_ATTRIBUTE_LIST [Node HTML_ATTRIBUTE [Leaf TK_WHITESPACE (txt " "); Leaf TK_WORD (txt "a"); Leaf TK_EQUAL (txt "="); Node HTML_STRING [Node HTML_STRING_INNER []]]; Node ERROR [Leaf TK_CURLY_PERCENT (txt "{%")]]; Node ERROR [Leaf TK_PERCENT (txt "%")]]; Node BODY []; Node HTML_ENDING_TAG []]],
   [txt "error at 5..7: expected html attribute value but found {%"; txt "error at 7..8: expected twig tag but found %"; txt "error at 7..8: expected > but found %"; txt "error at 7..8: expected </d> ending tag but reached end of file"]).

(** grammar/html.rs:2011 *)
Definition t_html_2011 : ptest :=
  (txt "<div> \t unknown token </div>",
   Node ROOT [Node HTML_TAG [Node HTML_STARTING_TAG [Leaf TK_LESS_THAN (txt "<"); Leaf TK_WORD (txt "div"); Node HTML_ATTRIBUTE_LIST []; Leaf TK_GREATER_THAN (txt ">")]; Node BODY [Node HTML_TEXT [Leaf TK_WHITESPACE (txt " "); Leaf TK_BACKWARD_SLASH (txt "\"); Leaf TK_WORD (txt "t"); Leaf TK_WHITESPACE (txt " "); Leaf TK_WORD (txt "unknown"); Leaf TK_WHITESPACE (txt " "); Leaf TK_WORD (txt "token")]]; Node HTML_ENDING_TAG [Leaf TK_WHITESPACE (txt " "); Leaf TK_LESS_THAN_SLASH (txt "</"); Leaf TK_WORD (txt "div"); Leaf TK_GREATER_THAN (txt ">")]]],
   []).

(** grammar/html.rs:2040 *)
Definition t_html_2040 : ptest :=
  (txt "
                <template #slot>
                    <my-component :bind=""hello"" @click=""onClick"">
                        hello
                    </my-component>
                </template>
            ",
   Node ROOT [Node HTML_TAG [Node HTML_STARTING_TAG [Leaf TK_LINE_BREAK (txt "
"); Leaf TK_WHITESPACE (txt "                "); Leaf TK_LESS_THAN (txt "<"); Leaf TK_WORD (txt "template"); Node HTML_ATTRIBUTE_LIST [Node HTML_ATTRIBUTE [Leaf TK_WHITESPACE (txt " "); Leaf TK_WORD (txt "#slot")]]; Leaf TK_GREATER_THAN (txt ">")]; Node BODY [Node HTML_TAG [Node HTML_STARTING_TAG [Leaf TK_LINE_BREAK (txt "
"); Leaf TK_WHITESPACE (txt "                    "); Leaf TK_LESS_THAN (txt "<"); Leaf TK_WORD (txt "my-component"); Node HTML_ATTRIBUTE_LIST [Node HTML_ATTRIBUTE [Leaf TK_WHITESPACE (txt " "); Leaf TK_WORD (txt ":bind"); Leaf TK_EQUAL (txt "="); Node HTML_STRING [Leaf TK_DOUBLE_QUOTES (txt """"); Node HTML_STRING_INNER [Leaf TK_WORD (txt "hello")]; Leaf TK_DOUBLE_QUOTES (txt """")]]; Node HTML_ATTRIBUTE [Leaf TK_WHITESPACE (txt " "); Leaf TK_WORD (txt "@click"); Leaf TK_EQUAL (txt "="); Node HTML_STRING [Leaf TK_DOUBLE_QUOTES (txt """"); Node HTML_STRING_INNER [Leaf TK_WORD (txt "onClick")]; Leaf TK_DOUBLE_QUOTES (txt """")]]]; Leaf TK_GREATER_THAN (txt ">")]; Node BODY [Node HTML_TEXT [Leaf TK_LINE_BREAK (txt "
"); Leaf TK_WHITESPACE (txt "                        "); Leaf TK_WORD (txt "hello")]]; Node HTML_ENDING_TAG [Leaf TK_LINE_BREAK (txt "
"); Leaf TK_WHITESPACE (txt "                    "); Leaf TK_LESS_THAN_SLASH (txt "</"); Leaf TK_WORD (txt "my-component"); Leaf TK_GREATER_THAN (txt ">")]]]; Node HTML_ENDING_TAG [Leaf TK_LINE_BREAK (txt "
"); Leaf TK_WHITESPACE (txt "                "); Leaf TK_LESS_THAN_SLASH (txt "</"); Leaf TK_WORD (txt "template"); Leaf TK_GREATER_THAN (txt ">")]]; Leaf TK_LINE_BREAK (txt "
"); Leaf TK_WHITESPACE (txt "            ")],
   []).

(** grammar/html.rs:2112 *)
Definition t_html_2112 : ptest :=
  (txt "<source srcset=""..."">",
   Node ROOT [Node HTML_TAG [Node HTML_STARTING_TAG [Leaf TK_LESS_THAN (txt "<"); Leaf TK_WORD (txt "source"); Node HTML_ATTRIBUTE_LIST [Node HTML_ATTRIBUTE [Leaf TK_WHITESPACE (txt " "); Leaf TK_WORD (txt "srcset"); Leaf TK_EQUAL (txt "="); Node HTML_STRING [Leaf TK_DOUBLE_QUOTES (txt """"); Node HTML_STRING_INNER [Leaf TK_TRIPLE_DOT (txt "...")]; Leaf TK_DOUBLE_QUOTES (txt """")]]]; Leaf TK_GREATER_THAN (txt ">")]]],
   []).

(** grammar/html.rs:2136 *)
Definition t_html_2136 : ptest :=
  (txt "<!doctype html>",
   Node ROOT [Node HTML_DOCTYPE [Leaf TK_LESS_THAN_EXCLAMATION_MARK (txt "<!"); Leaf TK_DOCTYPE (txt "doctype"); Leaf TK_WHITESPACE (txt " "); Leaf TK_WORD (txt "html"); Leaf TK_GREATER_THAN (txt ">")]],
   []).

(** grammar/html.rs:2151 *)
Definition t_html_2151 : ptest :=
  (txt "<twig:Alert message=""Or use the fun HTML syntax!"" />",
   Node ROOT [Node HTML_TAG [Node HTML_STARTING_TAG [Leaf TK_LESS_THAN (txt "<"); Leaf TK_TWIG_COMPONENT_NAME (txt "twig:Alert"); Node HTML_ATTRIBUTE_LIST [Node HTML_ATTRIBUTE [Leaf TK_WHITESPACE (txt " "); Leaf TK_WORD (txt "message"); Leaf TK_EQUAL (txt "="); Node HTML_STRING [Leaf TK_DOUBLE_QUOTES (txt """"); Node HTML_STRING_INNER [Leaf TK_WORD (txt "Or"); Leaf TK_WHITESPACE (txt " "); Leaf TK_USE (txt "use"); Leaf TK_WHITESPACE (txt " "); Leaf TK_WORD (txt "the"); Leaf TK_WHITESPACE (txt " "); Leaf TK_WORD (txt "fun"); Leaf TK_WHITESPACE (txt " "); Leaf TK_WORD (txt "HTML"); Leaf TK_WHITESPACE (txt " "); Leaf TK_WORD (txt "syntax"); Leaf TK_EXCLAMATION_MARK (txt "!")]; Leaf TK_DOUBLE_QUOTES (txt """")]]]; Leaf TK_WHITESPACE (txt " "); Leaf TK_SLASH_GREATER_THAN (txt "/>")]]],
   []).

(** grammar/html.rs:2187 *)
Definition t_html_2187 : ptest :=
  (txt "<twig:swButton variant=""danger"">My button</twig:swButton>",
   Node ROOT [Node HTML_TAG [Node HTML_STARTING_TAG [Leaf TK_LESS_THAN (txt "<"); Leaf TK_TWIG_COMPONENT_NAME (txt "twig:swButton"); Node HTML_ATTRIBUTE_LIST [Node HTML_ATTRIBUTE [Leaf TK_WHITESPACE (txt " "); Leaf TK_WORD (txt "variant"); Leaf TK_EQUAL (txt "="); Node HTML_STRING [Leaf TK_DOUBLE_QUOTES (txt """"); Node HTML_STRING_INNER [Leaf TK_WORD (txt "danger")]; Leaf TK_DOUBLE_QUOTES (txt """")]]]; Leaf TK_GREATER_THAN (txt ">")]; Node BODY [Node HTML_TEXT [Leaf TK_WORD (txt "My"); Leaf TK_WHITESPACE (txt " "); Leaf TK_WORD (txt "button")]]; Node HTML_ENDING_TAG [Leaf TK_LESS_THAN_SLASH (txt "</"); Leaf TK_TWIG_COMPONENT_NAME (txt "twig:swButton"); Leaf TK_GREATER_THAN (txt ">")]]],
   []).

(** grammar/html.rs:2220 *)
Definition t_html_2220 : ptest :=
  (txt "<twig:Sw:Product:WishlistButton :messageParam=""variable"">hello</twig:Sw:Product:WishlistButton>",
   Node ROOT [Node HTML_TAG [Node HTML_STARTING_TAG [Leaf TK_LESS_THAN (txt "<"); Leaf TK_TWIG_COMPONENT_NAME (txt "twig:Sw:Product:WishlistButton"); Node HTML_ATTRIBUTE_LIST [Node HTML_ATTRIBUTE [Leaf TK_WHITESPACE (txt " "); Leaf TK_WORD (txt ":messageParam"); Leaf TK_EQUAL (txt "="); Node HTML_STRING [Leaf TK_DOUBLE_QUOTES (txt """"); Node HTML_STRING_INNER [Leaf TK_WORD (txt "variable")]; Leaf TK_DOUBLE_QUOTES (txt """")]]]; Leaf TK_GREATER_THAN (txt ">")]; Node BODY [Node HTML_TEXT [Leaf TK_WORD (txt "hello")]]; Node HTML_ENDING_TAG [Leaf TK_LESS_THAN_SLASH (txt "</"); Leaf TK_TWIG_COMPONENT_NAME (txt "twig:Sw:Product:WishlistButton"); Leaf TK_GREATER_THAN (txt ">")]]],
   []).

(** grammar/html.rs:2251 *)
Definition t_html_2251 : ptest :=
  (txt "<twig:swCard variant=""large""><twig:swButton variant=""primary"">click me</twig:swButton></twig:swCard>",
   Node ROOT [Node HTML_TAG [Node HTML_STARTING_TAG [Leaf TK_LESS_THAN (txt "<"); Leaf TK_TWIG_COMPONENT_NAME (txt "twig:swCard"); Node HTML_ATTRIBUTE_LIST [Node HTML_ATTRIBUTE [Leaf TK_WHITESPACE (txt " "); Leaf TK_WORD (txt "variant"); Leaf TK_EQUAL (txt "="); Node HTML_STRING [Leaf TK_DOUBLE_QUOTES (txt """"); Node HTML_STRING_INNER [Leaf TK_WORD (txt "large")]; Leaf TK_DOUBLE_QUOTES (txt """")]]]; Leaf TK_GREATER_THAN (txt ">")]; Node BODY [Node HTML_TAG [Node HTML_STARTING_TAG [Leaf TK_LESS_THAN (txt "<"); Leaf TK_TWIG_COMPONENT_NAME (txt "twig:swButton"); Node HTML_ATTRIBUTE_LIST [Node HTML_ATTRIBUTE [Leaf TK_WHITESPACE (txt " "); Leaf TK_WORD (txt "variant"); Leaf TK_EQUAL (txt "="); Node HTML_STRING [Leaf TK_DOUBLE_QUOTES (txt """"); Node HTML_STRING_INNER [Leaf TK_WORD (txt "primary")]; Leaf TK_DOUBLE_QUOTES (txt """")]]]; Leaf TK_GREATER_THAN (txt ">")]; Node BODY [Node HTML_TEXT [Leaf TK_WORD (txt "click"); Leaf TK_WHITESPACE (txt " "); Leaf TK_WORD (txt "me")]]; Node HTML_ENDING_TAG [Leaf TK_LESS_THAN_SLASH (txt "</"); Leaf TK_TWIG_COMPONENT_NAME (txt "twig:swButton"); Leaf TK_GREATER_THAN (txt ">")]]]; Node HTML_ENDING_TAG [Leaf TK_LESS_THAN_SLASH (txt "</"); Leaf TK_TWIG_COMPONENT_NAME (txt "twig:swCard"); Leaf TK_GREATER_THAN (txt ">")]]],
   []).

(** grammar/html.rs:2304 *)
Definition t_html_2304 : ptest :=
  (txt "<p>
    downloads < 100
</p>",
   Node ROOT [Node HTML_TAG [Node HTML_STARTING_TAG [Leaf TK_LESS_THAN (txt "<"); Leaf TK_WORD (txt "p"); Node HTML_ATTRIBUTE_LIST []; Leaf TK_GREATER_THAN (txt ">")]; Node BODY [Node HTML_TEXT [Leaf TK_LINE_BREAK (txt "
"); Leaf TK_WHITESPACE (txt "    "); Leaf TK_WORD (txt "downloads"); Leaf TK_WHITESPACE (txt " "); Leaf TK_LESS_THAN (txt "<"); Leaf TK_WHITESPACE (txt " "); Leaf TK_NUMBER (txt "100")]]; Node HTML_ENDING_TAG [Leaf TK_LINE_BREAK (txt "
"); Leaf TK_LESS_THAN_SLASH (txt "</"); Leaf TK_WORD (txt "p"); Leaf TK_GREATER_THAN (txt ">")]]],
   []).

(** grammar/html.rs:2335 *)
Definition t_html_2335 : ptest :=
  (txt "<p>
        < 100
</p>",
   Node ROOT [Node HTML_TAG [Node HTML_STARTING_TAG [Leaf TK_LESS_THAN (txt "<"); Leaf TK_WORD (txt "p"); Node HTML_ATTRIBUTE_LIST []; Leaf TK_GREATER_THAN (txt ">")]; Node BODY [Node HTML_TEXT [Leaf TK_LINE_BREAK (txt "
"); Leaf TK_WHITESPACE (txt "        "); Leaf TK_LESS_THAN (txt "<"); Leaf TK_WHITESPACE (txt " "); Leaf TK_NUMBER (txt "100")]]; Node HTML_ENDING_TAG [Leaf TK_LINE_BREAK (txt "
"); Leaf TK_LESS_THAN_SLASH (txt "</"); Leaf TK_WORD (txt "p"); Leaf TK_GREATER_THAN (txt ">")]]],
   []).

(** grammar/html.rs:2364 *)
Definition t_html_2364 : ptest :=
  (txt "{% block s %}<{% endblock %}",
   Node ROOT [Node TWIG_BLOCK [Node TWIG_STARTING_BLOCK [Leaf TK_CURLY_PERCENT (txt "{%"); Leaf TK_WHITESPACE (txt " "); Leaf TK_BLOCK (txt "block"); Leaf TK_WHITESPACE (txt " "); Leaf TK_WORD (txt "s"); Leaf TK_WHITESPACE (txt " "); Leaf TK_PERCENT_CURLY (txt "%}")]; Node BODY [Node HTML_TEXT [Leaf TK_LESS_THAN (txt "<")]]; Node TWIG_ENDING_BLOCK [Leaf TK_CURLY_PERCENT (txt "{%"); Leaf TK_WHITESPACE (txt " "); Leaf TK_ENDBLOCK (txt "endblock"); Leaf TK_WHITESPACE (txt " "); Leaf TK_PERCENT_CURLY (txt "%}")]]],
   []).

(** grammar/html.rs:2391 *)
Definition t_html_2391 : ptest :=
  (txt "downloads <",
   Node ROOT [Node HTML_TEXT [Leaf TK_WORD (txt "downloads"); Leaf TK_WHITESPACE (txt " "); Leaf TK_LESS_THAN (txt "<")]],
   []).

(** grammar/html.rs:2404 *)
Definition t_html_2404 : ptest :=
  (txt "downloads <100",
   Node ROOT [Node HTML_TEXT [Leaf TK_WORD (txt "downloads"); Leaf TK_WHITESPACE (txt " "); Leaf TK_LESS_THAN (txt "<"); Leaf TK_NUMBER (txt "100")]],
   []).

(** grammar/html.rs:2418 *)
Definition t_html_2418 : ptest :=
  (txt "<style>
            body {
                font-family: Arial, sans-serif;
                line-height: 1.6;
                color: #333;
                max-width: 1200px;
                margin: 0 auto;
                padding: 20px;
            }
            h1, h2 {
                color: {{ myTwigColor }};
            }
            .issue {
                background-color: #f8f9fa;
                border-left: 4px solid #007bff;
                padding: 10px;
                margin-bottom: 20px;
            }
            code {
                white-space: pre;
            }
            </style>",
   Node ROOT [Node HTML_TAG [Node HTML_STARTING_TAG [Leaf TK_LESS_THAN (txt "<"); Leaf TK_WORD (txt "style"); Node HTML_ATTRIBUTE_LIST []; Leaf TK_GREATER_THAN (txt ">")]; Node BODY [Node HTML_RAW_TEXT [Leaf TK_LINE_BREAK (txt "
"); Leaf TK_WHITESPACE (txt "            "); Leaf TK_WORD (txt "body"); Leaf TK_WHITESPACE (txt " "); Leaf TK_OPEN_CURLY (txt "{"); Leaf TK_LINE_BREAK (txt "
"); Leaf TK_WHITESPACE (txt "                "); Leaf TK_WORD (txt "font-family"); Leaf TK_COLON (txt ":"); Leaf TK_WHITESPACE (txt " "); Leaf TK_WORD (txt "Arial"); Leaf TK_COMMA (txt ","); Leaf TK_WHITESPACE (txt " "); Leaf TK_WORD (txt "sans-serif"); Leaf TK_SEMICOLON (txt ";"); Leaf TK_LINE_BREAK (txt "
"); Leaf TK_WHITESPACE (txt "                "); Leaf TK_WORD (txt "line-height"); Leaf TK_COLON (txt ":"); Leaf TK_WHITESPACE (txt " "); Leaf TK_NUMBER (txt "1.6"); Leaf TK_SEMICOLON (txt ";"); Leaf TK_LINE_BREAK (txt "
"); Leaf TK_WHITESPACE (txt "                "); Leaf TK_WORD (txt "color"); Leaf TK_COLON (txt ":"); Leaf TK_WHITESPACE (txt " "); Leaf TK_HASHTAG (txt "#"); Leaf TK_NUMBER (txt "333"); Leaf TK_SEMICOLON (txt ";"); Leaf TK_LINE_BREAK (txt "
"); Leaf TK_WHITESPACE (txt "                "); Leaf TK_WORD (txt "max-width"); Leaf TK_COLON (txt ":"); Leaf TK_WHITESPACE (txt " "); Leaf TK_NUMBER (txt "1200"); Leaf TK_WORD (txt "px"); Leaf TK_SEMICOLON (txt ";"); Leaf TK_LINE_BREAK (txt "
"); Leaf TK_WHITESPACE (txt "                "); Leaf TK_WORD (txt "margin"); Leaf TK_COLON (txt ":"); Leaf TK_WHITESPACE (txt " "); Leaf TK_NUMBER (txt "0"); Leaf TK_WHITESPACE (txt " "); Leaf TK_WORD (txt "auto"); Leaf TK_SEMICOLON (txt ";"); Leaf TK_LINE_BREAK (txt "
"); Leaf TK_WHITESPACE (txt "                "); Leaf TK_WORD (txt "padding"); Leaf TK_COLON (txt ":"); Leaf TK_WHITESPACE (txt " "); Leaf TK_NUMBER (txt "20"); Leaf TK_WORD (txt "px"); Leaf TK_SEMICOLON (txt ";"); Leaf TK_LINE_BREAK (txt "
"); Leaf TK_WHITESPACE (txt "            "); Leaf TK_CLOSE_CURLY (txt "}"); Leaf TK_LINE_BREAK (txt "
"); Leaf TK_WHITESPACE (txt "            "); Leaf TK_WORD (txt "h1"); Leaf TK_COMMA (txt ","); Leaf TK_WHITESPACE (txt " "); Leaf TK_WORD (txt "h2"); Leaf TK_WHITESPACE (txt " "); Leaf TK_OPEN_CURLY (txt "{"); Leaf TK_LINE_BREAK (txt "
"); Leaf TK_WHITESPACE (txt "                "); Leaf TK_WORD (txt "color"); Leaf TK_COLON (txt ":"); Node TWIG_VAR [Leaf TK_WHITESPACE (txt " "); Leaf TK_OPEN_CURLY_CURLY (txt "{{"); Node TWIG_EXPRESSION [Node TWIG_LITERAL_NAME [Leaf TK_WHITESPACE (txt " "); Leaf TK_WORD (txt "myTwigColor")]]; Leaf TK_WHITESPACE (txt " "); Leaf TK_CLOSE_CURLY_CURLY (txt "}}")]; Leaf TK_SEMICOLON (txt ";"); Leaf TK_LINE_BREAK (txt "
"); Leaf TK_WHITESPACE (txt "            "); Leaf TK_CLOSE_CURLY (txt "}"); Leaf TK_LINE_BREAK (txt "
"); Leaf TK_WHITESPACE (txt "            "); Leaf TK_DOT (txt "."); Leaf TK_WORD (txt "issue"); Leaf TK_WHITESPACE (txt " "); Leaf TK_OPEN_CURLY (txt "{"); Leaf TK_LINE_BREAK (txt "
"); Leaf TK_WHITESPACE (txt "                "); Leaf TK_WORD (txt "background-color"); Leaf TK_COLON (txt ":"); Leaf TK_WHITESPACE (txt " "); Leaf TK_WORD (txt "#f8f9fa"); Leaf TK_SEMICOLON (txt ";"); Leaf TK_LINE_BREAK (txt "
"); Leaf TK_WHITESPACE (txt "                "); Leaf TK_WORD (txt "border-left"); Leaf TK_COLON (txt ":"); Leaf TK_WHITESPACE (txt " "); Leaf TK_NUMBER (txt "4"); Leaf TK_WORD (txt "px"); Leaf TK_WHITESPACE (txt " "); Leaf TK_WORD (txt "solid"); Leaf TK_WHITESPACE (txt " "); Leaf TK_HASHTAG (txt "#"); Leaf TK_NUMBER (txt "007"); Leaf TK_WORD (txt "bff"); Leaf TK_SEMICOLON (txt ";"); Leaf TK_LINE_BREAK (txt "
"); Leaf TK_WHITESPACE (txt "                "); Leaf TK_WORD (txt "padding"); Leaf TK_COLON (txt ":"); Leaf TK_WHITESPACE (txt " "); Leaf TK_NUMBER (txt "10"); Leaf TK_WORD (txt "px"); Leaf TK_SEMICOLON (txt ";"); Leaf TK_LINE_BREAK (txt "
"); Leaf TK_WHITESPACE (txt "                "); Leaf TK_WORD (txt "margin-bottom"); Leaf TK_COLON (txt ":"); Leaf TK_WHITESPACE (txt " "); Leaf TK_NUMBER (txt "20"); Leaf TK_WORD (txt "px"); Leaf TK_SEMICOLON (txt ";"); Leaf TK_LINE_BREAK (txt "
"); Leaf TK_WHITESPACE (txt "            "); Leaf TK_CLOSE_CURLY (txt "}"); Leaf TK_LINE_BREAK (txt "
"); Leaf TK_WHITESPACE (txt "            "); Leaf TK_WORD (txt "code"); Leaf TK_WHITESPACE (txt " "); Leaf TK_OPEN_CURLY (txt "{"); Leaf TK_LINE_BREAK (txt "
"); Leaf TK_WHITESPACE (txt "                "); Leaf TK_WORD (txt "white-space"); Leaf TK_COLON (txt ":"); Leaf TK_WHITESPACE (txt " "); Leaf TK_WORD (txt "pre"); Leaf TK_SEMICOLON (txt ";"); Leaf TK_LINE_BREAK (txt "
"); Leaf TK_WHITESPACE (txt "            "); Leaf TK_CLOSE_CURLY (txt "}")]]; Node HTML_ENDING_TAG [Leaf TK_LINE_BREAK (txt "
"); Leaf TK_WHITESPACE (txt "            "); Leaf TK_LESS_THAN_SLASH (txt "</"); Leaf TK_WORD (txt "style"); Leaf TK_GREATER_THAN (txt ">")]]],
   []).

(** grammar/html.rs:2607 *)
Definition t_html_2607 : ptest :=
  (txt "<ScrIpt type=""text/javascript"">
                document.getElementById(""demo"").innerHTML = ""<h1>Hello JavaScript!</h1>"";
            </ScrIpt>",
   Node ROOT [Node HTML_TAG [Node HTML_STARTING_TAG [Leaf TK_LESS_THAN (txt "<"); Leaf TK_WORD (txt "ScrIpt"); Node HTML_ATTRIBUTE_LIST [Node HTML_ATTRIBUTE [Leaf TK_WHITESPACE (txt " "); Leaf TK_WORD (txt "type"); Leaf TK_EQUAL (txt "="); Node HTML_STRING [Leaf TK_DOUBLE_QUOTES (txt """"); Node HTML_STRING_INNER [Leaf TK_WORD (txt "text"); Leaf TK_FORWARD_SLASH (txt "/"); Leaf TK_WORD (txt "javascript")]; Leaf TK_DOUBLE_QUOTES (txt """")]]]; Leaf TK_GREATER_THAN (txt ">")]; Node BODY [Node HTML_RAW_TEXT [Leaf TK_LINE_BREAK (txt "
"); Leaf TK_WHITESPACE (txt "                "); Leaf TK_WORD (txt "document"); Leaf TK_DOT (txt "."); Leaf TK_WORD (txt "getElementById"); Leaf TK_OPEN_PARENTHESIS (txt "("); Leaf TK_DOUBLE_QUOTES (txt """"); Leaf TK_WORD (txt "demo"); Leaf TK_DOUBLE_QUOTES (txt """"); Leaf TK_CLOSE_PARENTHESIS (txt ")"); Leaf TK_DOT (txt "."); Leaf TK_WORD (txt "innerHTML"); Leaf TK_WHITESPACE (txt " "); Leaf TK_EQUAL (txt "="); Leaf TK_WHITESPACE (txt " "); Leaf TK_DOUBLE_QUOTES (txt """"); Leaf TK_LESS_THAN (txt "<"); Leaf TK_WORD (txt "h1"); Leaf TK_GREATER_THAN (txt ">"); Leaf TK_WORD (txt "Hello"); Leaf TK_WHITESPACE (txt " "); Leaf TK_WORD (txt "JavaScript"); Leaf TK_EXCLAMATION_MARK (txt "!"); Leaf TK_LESS_THAN_SLASH (txt "</"); Leaf TK_WORD (txt "h1"); Leaf TK_GREATER_THAN (txt ">"); Leaf TK_DOUBLE_QUOTES (txt """"); Leaf TK_SEMICOLON (txt ";")]]; Node HTML_ENDING_TAG [Leaf TK_LINE_BREAK (txt "
"); Leaf TK_WHITESPACE (txt "            "); Leaf TK_LESS_THAN_SLASH (txt "</"); Leaf TK_WORD (txt "ScrIpt"); Leaf TK_GREATER_THAN (txt ">")]]],
   []).

(** grammar/html.rs:2671 *)
Definition t_html_2671 : ptest :=
  (txt "<textarea name=""myTextarea"" rows=""4"" cols=""50"">
                some text. {{ name }} was here. {% block changeme %}this can be overriden{% endblock %}
            </textarea>",
   Node ROOT [Node HTML_TAG [Node HTML_STARTING_TAG [Leaf TK_LESS_THAN (txt "<"); Leaf TK_WORD (txt "textarea"); Node HTML_ATTRIBUTE_LIST [Node HTML_ATTRIBUTE [Leaf TK_WHITESPACE (txt " "); Leaf TK_WORD (txt "name"); Leaf TK_EQUAL (txt "="); Node HTML_STRING [Leaf TK_DOUBLE_QUOTES (txt """"); Node HTML_STRING_INNER [Leaf TK_WORD (txt "myTextarea")]; Leaf TK_DOUBLE_QUOTES (txt """")]]; Node HTML_ATTRIBUTE [Leaf TK_WHITESPACE (txt " "); Leaf TK_WORD (txt "rows"); Leaf TK_EQUAL (txt "="); Node HTML_STRING [Leaf TK_DOUBLE_QUOTES (txt """"); Node HTML_STRING_INNER [Leaf TK_NUMBER (txt "4")]; Leaf TK_DOUBLE_QUOTES (txt """")]]; Node HTML_ATTRIBUTE [Leaf TK_WHITESPACE (txt " "); Leaf TK_WORD (txt "cols"); Leaf TK_EQUAL (txt "="); Node HTML_STRING [Leaf TK_DOUBLE_QUOTES (txt """"); Node HTML_STRING_INNER [Leaf TK_NUMBER (txt "50")]; Leaf TK_DOUBLE_QUOTES (txt """")]]]; Leaf TK_GREATER_THAN (txt ">")]; Node BODY [Node HTML_RAW_TEXT [Leaf TK_LINE_BREAK (txt "
"); Leaf TK_WHITESPACE (txt "                "); Leaf TK_WORD (txt "some"); Leaf TK_WHITESPACE (txt " "); Leaf TK_WORD (txt "text"); Leaf TK_DOT (txt "."); Node TWIG_VAR [Leaf TK_WHITESPACE (txt " "); Leaf TK_OPEN_CURLY_CURLY (txt "{{"); Node TWIG_EXPRESSION [Node TWIG_LITERAL_NAME [Leaf TK_WHITESPACE (txt " "); Leaf TK_WORD (txt "name")]]; Leaf TK_WHITESPACE (txt " "); Leaf TK_CLOSE_CURLY_CURLY (txt "}}")]; Leaf TK_WHITESPACE (txt " "); Leaf TK_WORD (txt "was"); Leaf TK_WHITESPACE (txt " "); Leaf TK_WORD (txt "here"); Leaf TK_DOT (txt "."); Node TWIG_BLOCK [Node TWIG_STARTING_BLOCK [Leaf TK_WHITESPACE (txt " "); Leaf TK_CURLY_PERCENT (txt "{%"); Leaf TK_WHITESPACE (txt " "); Leaf TK_BLOCK (txt "block"); Leaf TK_WHITESPACE (txt " "); Leaf TK_WORD (txt "changeme"); Leaf TK_WHITESPACE (txt " "); Leaf TK_PERCENT_CURLY (txt "%}")]; Node BODY [Node HTML_RAW_TEXT [Leaf TK_WORD (txt "this"); Leaf TK_WHITESPACE (txt " "); Leaf TK_WORD (txt "can"); Leaf TK_WHITESPACE (txt " "); Leaf TK_WORD (txt "be"); Leaf TK_WHITESPACE (txt " "); Leaf TK_WORD (txt "overriden")]]; Node TWIG_ENDING_BLOCK [Leaf TK_CURLY_PERCENT (txt "{%"); Leaf TK_WHITESPACE (txt " "); Leaf TK_ENDBLOCK (txt "endblock"); Leaf TK_WHITESPACE (txt " "); Leaf TK_PERCENT_CURLY (txt "%}")]]]]; Node HTML_ENDING_TAG [Leaf TK_LINE_BREAK (txt "
"); Leaf TK_WHITESPACE (txt "            "); Leaf TK_LESS_THAN_SLASH (txt "</"); Leaf TK_WORD (txt "textarea"); Leaf TK_GREATER_THAN (txt ">")]]],
   []).

(** grammar/html.rs:2768 *)
Definition t_html_2768 : ptest :=
  (txt "<title>{{ title }} is awesome</title>",
   Node ROOT [Node HTML_TAG [Node HTML_STARTING_TAG [Leaf TK_LESS_THAN (txt "<"); Leaf TK_WORD (txt "title"); Node HTML_ATTRIBUTE_LIST []; Leaf TK_GREATER_THAN (txt ">")]; Node BODY [Node HTML_RAW_TEXT [Node TWIG_VAR [Leaf TK_OPEN_CURLY_CURLY (txt "{{"); Node TWIG_EXPRESSION [Node TWIG_LITERAL_NAME [Leaf TK_WHITESPACE (txt " "); Leaf TK_WORD (txt "title")]]; Leaf TK_WHITESPACE (txt " "); Leaf TK_CLOSE_CURLY_CURLY (txt "}}")]; Leaf TK_WHITESPACE (txt " "); Leaf TK_IS (txt "is"); Leaf TK_WHITESPACE (txt " "); Leaf TK_WORD (txt "awesome")]]; Node HTML_ENDING_TAG [Leaf TK_LESS_THAN_SLASH (txt "</"); Leaf TK_WORD (txt "title"); Leaf TK_GREATER_THAN (txt ">")]]],
   []).

(** grammar.rs:107 *)
Definition t_grammar_107 : ptest :=
  (txt "{% block my-block %}
    <div claSs=""my-div"">
        world
    </div>
{% endblock %}",
   Node ROOT [Node TWIG_BLOCK [Node TWIG_STARTING_BLOCK [Leaf TK_CURLY_PERCENT (txt "{%"); Leaf TK_WHITESPACE (txt " "); Leaf TK_BLOCK (txt "block"); Leaf TK_WHITESPACE (txt " "); Leaf TK_WORD (txt "my-block"); Leaf TK_WHITESPACE (txt " "); Leaf TK_PERCENT_CURLY (txt "%}")]; Node BODY [Node HTML_TAG [Node HTML_STARTING_TAG [Leaf TK_LINE_BREAK (txt "
"); Leaf TK_WHITESPACE (txt "    "); Leaf TK_LESS_THAN (txt "<"); Leaf TK_WORD (txt "div"); Node HTML_ATTRIBUTE_LIST [Node HTML_ATTRIBUTE [Leaf TK_WHITESPACE (txt " "); Leaf TK_WORD (txt "claSs"); Leaf TK_EQUAL (txt "="); Node HTML_STRING [Leaf TK_DOUBLE_QUOTES (txt """"); Node HTML_STRING_INNER [Leaf TK_WORD (txt "my-div")]; Leaf TK_DOUBLE_QUOTES (txt """")]]]; Leaf TK_GREATER_THAN (txt ">")]; Node BODY [Node HTML_TEXT [Leaf TK_LINE_BREAK (txt "
"); Leaf TK_WHITESPACE (txt "        "); Leaf TK_WORD (txt "world")]]; Node HTML_ENDING_TAG [Leaf TK_LINE_BREAK (txt "
"); Leaf TK_WHITESPACE (txt "    "); Leaf TK_LESS_THAN_SLASH (txt "</"); Leaf TK_WORD (txt "div"); Leaf TK_GREATER_THAN (txt ">")]]]; Node TWIG_ENDING_BLOCK [Leaf TK_LINE_BREAK (txt "
"); Leaf TK_CURLY_PERCENT (txt "{%"); Leaf TK_WHITESPACE (txt " "); Leaf TK_ENDBLOCK (txt "endblock"); Leaf TK_WHITESPACE (txt " "); Leaf TK_PERCENT_CURLY (txt "%}")]]],
   []).

(** grammar.rs:183 *)
Definition t_grammar_183 : ptest :=
  (txt "{# ludtwig-ignore-file twig-block-line-breaks, twig-block-name-snake-case #}",
   Node ROOT [Node LUDTWIG_DIRECTIVE_FILE_IGNORE [Leaf TK_OPEN_CURLY_HASHTAG (txt "{#"); Leaf TK_WHITESPACE (txt " "); Leaf TK_LUDTWIG_IGNORE_FILE (txt "ludtwig-ignore-file"); Node LUDTWIG_DIRECTIVE_RULE_LIST [Leaf TK_WHITESPACE (txt " "); Leaf TK_WORD (txt "twig-block-line-breaks"); Leaf TK_COMMA (txt ","); Leaf TK_WHITESPACE (txt " "); Leaf TK_WORD (txt "twig-block-name-snake-case")]; Leaf TK_WHITESPACE (txt " "); Leaf TK_HASHTAG_CLOSE_CURLY (txt "#}")]],
   []).

(** grammar.rs:204 *)
Definition t_grammar_204 : ptest :=
  (txt "{# ludtwig-ignore twig-block-line-breaks, twig-block-name-snake-case #}",
   Node ROOT [Node LUDTWIG_DIRECTIVE_IGNORE [Leaf TK_OPEN_CURLY_HASHTAG (txt "{#"); Leaf TK_WHITESPACE (txt " "); Leaf TK_LUDTWIG_IGNORE (txt "ludtwig-ignore"); Node LUDTWIG_DIRECTIVE_RULE_LIST [Leaf TK_WHITESPACE (txt " "); Leaf TK_WORD (txt "twig-block-line-breaks"); Leaf TK_COMMA (txt ","); Leaf TK_WHITESPACE (txt " "); Leaf TK_WORD (txt "twig-block-name-snake-case")]; Leaf TK_WHITESPACE (txt " "); Leaf TK_HASHTAG_CLOSE_CURLY (txt "#}")]],
   []).

(** grammar.rs:225 *)
Definition t_grammar_225 : ptest :=
  (txt "<!-- ludtwig-ignore-file twig-block-line-breaks, twig-block-name-snake-case -->",
   Node ROOT [Node LUDTWIG_DIRECTIVE_FILE_IGNORE [Leaf TK_LESS_THAN_EXCLAMATION_MARK_MINUS_MINUS (txt "<!--"); Leaf TK_WHITESPACE (txt " "); Leaf TK_LUDTWIG_IGNORE_FILE (txt "ludtwig-ignore-file"); Node LUDTWIG_DIRECTIVE_RULE_LIST [Leaf TK_WHITESPACE (txt " "); Leaf TK_WORD (txt "twig-block-line-breaks"); Leaf TK_COMMA (txt ","); Leaf TK_WHITESPACE (txt " "); Leaf TK_WORD (txt "twig-block-name-snake-case")]; Leaf TK_WHITESPACE (txt " "); Leaf TK_MINUS_MINUS_GREATER_THAN (txt "-->")]],
   []).

(** grammar.rs:246 *)
Definition t_grammar_246 : ptest :=
  (txt "<!-- ludtwig-ignore twig-block-line-breaks, twig-block-name-snake-case -->",
   Node ROOT [Node LUDTWIG_DIRECTIVE_IGNORE [Leaf TK_LESS_THAN_EXCLAMATION_MARK_MINUS_MINUS (txt "<!--"); Leaf TK_WHITESPACE (txt " "); Leaf TK_LUDTWIG_IGNORE (txt "ludtwig-ignore"); Node LUDTWIG_DIRECTIVE_RULE_LIST [Leaf TK_WHITESPACE (txt " "); Leaf TK_WORD (txt "twig-block-line-breaks"); Leaf TK_COMMA (txt ","); Leaf TK_WHITESPACE (txt " "); Leaf TK_WORD (txt "twig-block-name-snake-case")]; Leaf TK_WHITESPACE (txt " "); Leaf TK_MINUS_MINUS_GREATER_THAN (txt "-->")]],
   []).

(** parser.rs:389 *)
Definition t_parser_389 : ptest :=
  (txt "",
   Node ROOT [],
   []).

Definition tests : list ptest :=
  [t_html_443; t_html_463; t_html_507; t_html_544; t_html_613; t_html_641; t_html_677; t_html_763; t_html_801; t_html_848; t_html_879; t_html_917; t_html_953; t_html_1002; t_html_1070; t_html_1161; t_html_1200; t_html_1239; t_html_1279; t_html_1320; t_html_1363; t_html_1403; t_html_1440; t_html_1471; t_html_1510; t_html_1541; t_html_1588; t_html_1643; t_html_1719; t_html_1764; t_html_1803; t_html_1849; t_html_1893; t_html_1926; t_html_1941; t_html_1981; t_html_2011; t_html_2040; t_html_2112; t_html_2136; t_html_2151; t_html_2187; t_html_2220; t_html_2251; t_html_2304; t_html_2335; t_html_2364; t_html_2391; t_html_2404; t_html_2418; t_html_2607; t_html_2671; t_html_2768; t_grammar_107; t_grammar_183; t_grammar_204; t_grammar_225; t_grammar_246; t_parser_389].

(** Debug builds: the tests run with debug assertions. *)
Example conformance : failing true tests = [].
Proof. vm_compute. reflexivity. Qed.
