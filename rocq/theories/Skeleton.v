(** What the syntax tree of an arbitrary template looks like, with or without syntax errors: for
    every kind of node the nodes it may consist of.  Tokens and error nodes are left out of
    account; an error node consists of tokens only.  This is a specification; it refers to trees
    only and not to the parser. *)
From Coq Require Import NArith String Bool List.
Import ListNotations.
From Verif Require Import Text Kind Machine TreeSpec Schema.
Local Open Scope list_scope.
Local Open Scope cm_scope.

(** The parts of a node: its children that are nodes, without error nodes. *)
Definition part (t : tree) : list sym :=
  match t with Leaf _ _ | Node ERROR _ => [] | Node k _ => [Nd k] end.
Definition parts (cs : list tree) : list sym := flat_map part cs.

(** starting part, body, ending part *)
Definition enclosed_body (starting ending : kind) : cm := nd [starting] >> nd [BODY] >> nd [ending].
(** the template and the variables of include and embed *)
Definition include_parts : cm := opt expr >> opt (nd [TWIG_INCLUDE_WITH]).

(** [None]: the kind does not occur as a node. *)
Definition skeleton (k : kind) : option cm :=
  match k with
  | ROOT => Some (Many (nd elements))
  | BODY => Some (Many (nd elements) <|> Many (nd [HTML_RAW_TEXT]) <|> Many (nd (HTML_ATTRIBUTE :: twig_statements)))

  | TWIG_VAR => Some (opt expr)
  | TWIG_COMMENT => Some Eps
  | LUDTWIG_DIRECTIVE_IGNORE | LUDTWIG_DIRECTIVE_FILE_IGNORE => Some (nd [LUDTWIG_DIRECTIVE_RULE_LIST])
  | LUDTWIG_DIRECTIVE_RULE_LIST => Some Eps

  | TWIG_EXPRESSION => Some (nd expressions)
  | TWIG_BINARY_EXPRESSION => Some (nd [TWIG_EXPRESSION; TWIG_BINARY_EXPRESSION] >> opt expr)
  | TWIG_UNARY_EXPRESSION | TWIG_PARENTHESES_EXPRESSION => Some (opt expr)
  | TWIG_CONDITIONAL_EXPRESSION => Some (expr >> opt expr >> opt expr)
  | TWIG_OPERAND => Some (opt (nd operands) <|> (name >> nd [TWIG_ARGUMENTS]))
  | TWIG_FILTER | TWIG_ACCESSOR => Some (nd [TWIG_OPERAND] >> nd [TWIG_OPERAND])
  | TWIG_INDEX_LOOKUP => Some (nd [TWIG_OPERAND] >> nd [TWIG_INDEX; TWIG_INDEX_RANGE])
  | TWIG_INDEX => Some (opt expr)
  | TWIG_INDEX_RANGE => Some (opt expr >> opt expr)
  | TWIG_FUNCTION_CALL => Some (nd [TWIG_OPERAND] >> nd [TWIG_ARGUMENTS])
  | TWIG_ARROW_FUNCTION => Some (nd [TWIG_ARGUMENTS] >> opt expr)
  | TWIG_ARGUMENTS => Some (Many (nd [TWIG_EXPRESSION; TWIG_NAMED_ARGUMENT]) <|> Many name)
  | TWIG_NAMED_ARGUMENT => Some (opt expr)

  | TWIG_LITERAL_NAME | TWIG_LITERAL_NUMBER | TWIG_LITERAL_NULL | TWIG_LITERAL_BOOLEAN => Some Eps
  | TWIG_LITERAL_STRING => Some (nd [TWIG_LITERAL_STRING_INNER])
  | TWIG_LITERAL_STRING_INNER => Some (Many (nd [TWIG_LITERAL_STRING_INTERPOLATION]))
  | TWIG_LITERAL_STRING_INTERPOLATION => Some (opt expr)
  | TWIG_LITERAL_ARRAY => Some (nd [TWIG_LITERAL_ARRAY_INNER])
  | TWIG_LITERAL_ARRAY_INNER => Some (Many expr)
  | TWIG_LITERAL_HASH => Some (nd [TWIG_LITERAL_HASH_ITEMS])
  | TWIG_LITERAL_HASH_ITEMS => Some (Many (nd [TWIG_LITERAL_HASH_PAIR]))
  | TWIG_LITERAL_HASH_PAIR => Some (nd [TWIG_LITERAL_HASH_KEY] >> opt expr)
  | TWIG_LITERAL_HASH_KEY => Some (nd [TWIG_LITERAL_NUMBER; TWIG_LITERAL_STRING] <|> opt expr)

  | TWIG_BLOCK => Some (nd [TWIG_STARTING_BLOCK] <|> enclosed_body TWIG_STARTING_BLOCK TWIG_ENDING_BLOCK)
  | TWIG_STARTING_BLOCK => Some (opt expr)
  | TWIG_ENDING_BLOCK => Some Eps
  | TWIG_IF => Some (nd [TWIG_IF_BLOCK] >> nd [BODY]
                     >> Many (nd [TWIG_ELSE_IF_BLOCK; TWIG_ELSE_BLOCK] >> nd [BODY]) >> nd [TWIG_ENDIF_BLOCK])
  | TWIG_IF_BLOCK | TWIG_ELSE_IF_BLOCK => Some (opt expr)
  | TWIG_ELSE_BLOCK | TWIG_ENDIF_BLOCK => Some Eps
  | TWIG_SET => Some (nd [TWIG_SET_BLOCK] <|> enclosed_body TWIG_SET_BLOCK TWIG_ENDSET_BLOCK)
  | TWIG_SET_BLOCK => Some (nd [TWIG_ASSIGNMENT])
  | TWIG_ASSIGNMENT => Some (Many name >> Many expr)
  | TWIG_ENDSET_BLOCK => Some Eps
  | TWIG_FOR => Some (nd [TWIG_FOR_BLOCK] >> nd [BODY] >> opt (nd [TWIG_FOR_ELSE_BLOCK] >> nd [BODY])
                      >> nd [TWIG_ENDFOR_BLOCK])
  | TWIG_FOR_BLOCK => Some (opt name >> opt name >> opt expr)
  | TWIG_FOR_ELSE_BLOCK | TWIG_ENDFOR_BLOCK => Some Eps
  | TWIG_EXTENDS => Some (opt expr)
  | TWIG_INCLUDE => Some include_parts
  | TWIG_INCLUDE_WITH => Some (opt expr)
  | TWIG_USE => Some (opt string_ >> Many (nd [TWIG_OVERRIDE]))
  | TWIG_OVERRIDE => Some (opt name >> opt name)
  | TWIG_APPLY => Some (enclosed_body TWIG_APPLY_STARTING_BLOCK TWIG_APPLY_ENDING_BLOCK)
  | TWIG_APPLY_STARTING_BLOCK => Some (opt name <|> (name >> nd [TWIG_ARGUMENTS]) <|> nd [TWIG_FILTER])
  | TWIG_APPLY_ENDING_BLOCK => Some Eps
  | TWIG_AUTOESCAPE => Some (enclosed_body TWIG_AUTOESCAPE_STARTING_BLOCK TWIG_AUTOESCAPE_ENDING_BLOCK)
  | TWIG_AUTOESCAPE_STARTING_BLOCK => Some (opt string_)
  | TWIG_AUTOESCAPE_ENDING_BLOCK => Some Eps
  | TWIG_DEPRECATED => Some (opt string_)
  | TWIG_DO => Some (opt expr)
  | TWIG_EMBED => Some (enclosed_body TWIG_EMBED_STARTING_BLOCK TWIG_EMBED_ENDING_BLOCK)
  | TWIG_EMBED_STARTING_BLOCK => Some include_parts
  | TWIG_EMBED_ENDING_BLOCK => Some Eps
  | TWIG_FLUSH => Some Eps
  | TWIG_FROM => Some (opt expr >> Many (nd [TWIG_OVERRIDE]))
  | TWIG_IMPORT => Some (opt expr >> opt name)
  | TWIG_SANDBOX => Some (enclosed_body TWIG_SANDBOX_STARTING_BLOCK TWIG_SANDBOX_ENDING_BLOCK)
  | TWIG_SANDBOX_STARTING_BLOCK | TWIG_SANDBOX_ENDING_BLOCK => Some Eps
  | TWIG_VERBATIM => Some (enclosed_body TWIG_VERBATIM_STARTING_BLOCK TWIG_VERBATIM_ENDING_BLOCK)
  | TWIG_VERBATIM_STARTING_BLOCK | TWIG_VERBATIM_ENDING_BLOCK => Some Eps
  | TWIG_MACRO => Some (enclosed_body TWIG_MACRO_STARTING_BLOCK TWIG_MACRO_ENDING_BLOCK)
  | TWIG_MACRO_STARTING_BLOCK => Some (nd [TWIG_ARGUMENTS])
  | TWIG_MACRO_ENDING_BLOCK => Some Eps
  | TWIG_WITH => Some (enclosed_body TWIG_WITH_STARTING_BLOCK TWIG_WITH_ENDING_BLOCK)
  | TWIG_WITH_STARTING_BLOCK => Some (opt expr)
  | TWIG_WITH_ENDING_BLOCK => Some Eps
  | TWIG_CACHE => Some (enclosed_body TWIG_CACHE_STARTING_BLOCK TWIG_CACHE_ENDING_BLOCK)
  | TWIG_CACHE_STARTING_BLOCK => Some (opt expr >> opt (nd [TWIG_CACHE_TTL]) >> opt (nd [TWIG_CACHE_TAGS]))
  | TWIG_CACHE_TTL | TWIG_CACHE_TAGS => Some (opt expr)
  | TWIG_CACHE_ENDING_BLOCK => Some Eps
  | TWIG_TRANS => Some (enclosed_body TWIG_TRANS_STARTING_BLOCK TWIG_TRANS_ENDING_BLOCK)
  | TWIG_TRANS_STARTING_BLOCK | TWIG_TRANS_ENDING_BLOCK => Some Eps
  | TWIG_COMPONENT => Some (enclosed_body TWIG_COMPONENT_STARTING_BLOCK TWIG_COMPONENT_ENDING_BLOCK)
  | TWIG_COMPONENT_STARTING_BLOCK => Some (opt name >> opt (nd [TWIG_LITERAL_HASH]))
  | TWIG_COMPONENT_ENDING_BLOCK => Some Eps
  | TWIG_PROPS => Some (Many (nd [TWIG_PROP_DECLARATION]))
  | TWIG_PROP_DECLARATION => Some (opt name >> opt expr)

  | SHOPWARE_TWIG_SW_EXTENDS => Some (opt string_)
  | SHOPWARE_TWIG_SW_INCLUDE => Some include_parts
  | SHOPWARE_SILENT_FEATURE_CALL =>
    Some (enclosed_body SHOPWARE_SILENT_FEATURE_CALL_STARTING_BLOCK SHOPWARE_SILENT_FEATURE_CALL_ENDING_BLOCK)
  | SHOPWARE_SILENT_FEATURE_CALL_STARTING_BLOCK => Some (opt string_)
  | SHOPWARE_SILENT_FEATURE_CALL_ENDING_BLOCK => Some Eps
  | SHOPWARE_RETURN => Some (opt expr)
  | SHOPWARE_ICON => Some (opt expr >> opt (nd [SHOPWARE_ICON_STYLE]))
  | SHOPWARE_ICON_STYLE => Some (opt expr)
  | SHOPWARE_THUMBNAILS => Some (opt expr >> opt (nd [SHOPWARE_THUMBNAILS_WITH]))
  | SHOPWARE_THUMBNAILS_WITH => Some (opt expr)

  | HTML_TAG => Some (nd [HTML_STARTING_TAG] <|> enclosed_body HTML_STARTING_TAG HTML_ENDING_TAG)
  | HTML_STARTING_TAG => Some (nd [HTML_ATTRIBUTE_LIST])
  | HTML_ENDING_TAG => Some Eps
  | HTML_ATTRIBUTE_LIST => Some (Many (nd (HTML_ATTRIBUTE :: twig_statements)))
  | HTML_ATTRIBUTE => Some (opt (nd [TWIG_VAR]) >> opt (nd [HTML_STRING]))
  | HTML_STRING => Some (nd [HTML_STRING_INNER])
  | HTML_STRING_INNER | HTML_RAW_TEXT => Some (Many (nd twig_statements))
  | HTML_TEXT | HTML_COMMENT | HTML_DOCTYPE => Some Eps

  | ERROR => Some Eps
  | _ => None
  end.

(** The children [cs] fit a node of kind [k]. *)
Definition fits (k : kind) (cs : list tree) : Prop :=
  match skeleton k with Some m => sem m (parts cs) | None => False end /\ (k = ERROR -> nodes cs = []).
