(** What the syntax tree of a template without syntax errors looks like: for every kind of node
    the content it may have, in the style of a document type definition.  This is a
    specification; it refers to trees only and not to the parser. *)
From Coq Require Import NArith String Bool List.
Import ListNotations.
From Verif Require Import Text Kind Machine TreeSpec.
Local Open Scope list_scope.

(** * Content models *)

(** A child: a token or a node. *)
Inductive sym : Set := Tok (k : kind) | Nd (k : kind).

Inductive cm : Type :=
| Eps                          (* nothing *)
| One (ss : list sym)          (* one of these children *)
| AnyTok                       (* any one token *)
| Seq (a b : cm)
| Alt (a b : cm)
| Many (a : cm).

Inductive star (P : list sym -> Prop) : list sym -> Prop :=
| star_nil : star P []
| star_app x y : P x -> star P y -> star P (x ++ y).

(** [sem m l]: the list [l] of children fits the content model [m]. *)
Fixpoint sem (m : cm) (l : list sym) : Prop :=
  match m with
  | Eps => l = []
  | One ss => exists s, l = [s] /\ In s ss
  | AnyTok => exists k, l = [Tok k]
  | Seq a b => exists x y, l = x ++ y /\ sem a x /\ sem b y
  | Alt a b => sem a l \/ sem b l
  | Many a => star (sem a) l
  end.

Declare Scope cm_scope.
Delimit Scope cm_scope with cm.
Bind Scope cm_scope with cm.
Notation "a >> b" := (Seq a b) (at level 61, right associativity) : cm_scope.
Notation "a <|> b" := (Alt a b) (at level 62, right associativity) : cm_scope.
Local Open Scope cm_scope.

Definition tk (ks : list kind) : cm := One (map Tok ks).
Definition nd (ks : list kind) : cm := One (map Nd ks).
Definition opt (a : cm) : cm := Eps <|> a.

(** * The children of a node that count

    Whitespace, line breaks and characters unknown to the lexer may stand between any two
    children (the parser accepts the latter silently wherever it reads a list of things). *)
Definition junk (k : kind) : bool := is_trivia k || kind_eqb k TK_UNKNOWN.
Definition symbol (t : tree) : list sym :=
  match t with
  | Leaf k _ => if junk k then [] else [Tok k]
  | Node k _ => [Nd k]
  end.
Definition content (cs : list tree) : list sym := flat_map symbol cs.

(** * The kinds *)

Definition block_open : cm := tk [TK_CURLY_PERCENT; TK_CURLY_PERCENT_MINUS; TK_CURLY_PERCENT_TILDE].
Definition block_close : cm := tk [TK_PERCENT_CURLY; TK_MINUS_PERCENT_CURLY; TK_TILDE_PERCENT_CURLY].
Definition var_open : cm := tk [TK_OPEN_CURLY_CURLY; TK_OPEN_CURLY_CURLY_MINUS; TK_OPEN_CURLY_CURLY_TILDE].
Definition var_close : cm := tk [TK_CLOSE_CURLY_CURLY; TK_MINUS_CLOSE_CURLY_CURLY; TK_TILDE_CLOSE_CURLY_CURLY].
Definition comment_open : cm := tk [TK_OPEN_CURLY_HASHTAG; TK_OPEN_CURLY_HASHTAG_MINUS; TK_OPEN_CURLY_HASHTAG_TILDE].
Definition comment_close : cm := tk [TK_HASHTAG_CLOSE_CURLY; TK_MINUS_HASHTAG_CLOSE_CURLY; TK_TILDE_HASHTAG_CLOSE_CURLY].

(** Twig statements: tags, output and comments. *)
Definition twig_statements : list kind :=
  [TWIG_VAR; TWIG_COMMENT; LUDTWIG_DIRECTIVE_IGNORE; LUDTWIG_DIRECTIVE_FILE_IGNORE;
   TWIG_BLOCK; TWIG_IF; TWIG_SET; TWIG_FOR; TWIG_EXTENDS; TWIG_INCLUDE; TWIG_EMBED; TWIG_USE; TWIG_FROM;
   TWIG_IMPORT; TWIG_APPLY; TWIG_AUTOESCAPE; TWIG_DEPRECATED; TWIG_DO; TWIG_FLUSH; TWIG_SANDBOX;
   TWIG_VERBATIM; TWIG_MACRO; TWIG_WITH; TWIG_CACHE; TWIG_TRANS; TWIG_COMPONENT; TWIG_PROPS;
   SHOPWARE_TWIG_SW_EXTENDS; SHOPWARE_TWIG_SW_INCLUDE; SHOPWARE_SILENT_FEATURE_CALL; SHOPWARE_RETURN;
   SHOPWARE_ICON; SHOPWARE_THUMBNAILS].
(** Everything a template consists of. *)
Definition elements : list kind := twig_statements ++ [HTML_TAG; HTML_COMMENT; HTML_DOCTYPE; HTML_TEXT].

(** Operands: everything a filter, an index or a property access can be applied to. *)
Definition operands : list kind :=
  [TWIG_LITERAL_NAME; TWIG_LITERAL_NUMBER; TWIG_LITERAL_STRING; TWIG_LITERAL_ARRAY; TWIG_LITERAL_NULL;
   TWIG_LITERAL_BOOLEAN; TWIG_LITERAL_HASH; TWIG_FUNCTION_CALL; TWIG_ARROW_FUNCTION; TWIG_ACCESSOR;
   TWIG_FILTER; TWIG_INDEX_LOOKUP; TWIG_PARENTHESES_EXPRESSION].
Definition expressions : list kind :=
  operands ++ [TWIG_UNARY_EXPRESSION; TWIG_BINARY_EXPRESSION; TWIG_CONDITIONAL_EXPRESSION].
Definition unary_operators : list kind := [TK_MINUS; TK_PLUS; TK_NOT; TK_TRIPLE_DOT].
Definition binary_operators : list kind :=
  [TK_OR; TK_DOUBLE_PIPE; TK_AND; TK_DOUBLE_AMPERSAND; TK_BINARY_OR; TK_BINARY_XOR; TK_BINARY_AND; TK_DOUBLE_EQUAL;
   TK_EXCLAMATION_MARK_EQUALS; TK_LESS_THAN_EQUAL_GREATER_THAN; TK_LESS_THAN; TK_GREATER_THAN;
   TK_GREATER_THAN_EQUAL; TK_LESS_THAN_EQUAL; TK_IN; TK_NOT_IN; TK_MATCHES; TK_STARTS_WITH; TK_ENDS_WITH;
   TK_TRIPLE_EQUAL; TK_EXCLAMATION_MARK_DOUBLE_EQUALS; TK_DOUBLE_DOT; TK_PLUS; TK_MINUS; TK_TILDE; TK_STAR;
   TK_FORWARD_SLASH; TK_DOUBLE_FORWARD_SLASH; TK_PERCENT; TK_IS; TK_IS_NOT; TK_DOUBLE_STAR; TK_DOUBLE_QUESTION_MARK].

Definition expr : cm := nd [TWIG_EXPRESSION].
Definition name : cm := nd [TWIG_LITERAL_NAME].
Definition string_ : cm := nd [TWIG_LITERAL_STRING].
Definition comma : cm := tk [TK_COMMA].

(** Things separated by commas; nothing at all may stand between two commas. *)
Definition sep (x : cm) : cm := Many (opt x >> comma).
Definition commas (x : cm) : cm := sep x >> opt x.
(** At least one thing, separated by commas; a comma may stand at the end. *)
Definition list1 (x : cm) : cm := (Many (x >> comma) >> x) <|> (Many (x >> comma) >> x >> comma).

(** A string with the given quotes. *)
Definition between_quotes (inner : kind) : cm :=
  (tk [TK_DOUBLE_QUOTES] >> nd [inner] >> tk [TK_DOUBLE_QUOTES])
  <|> (tk [TK_SINGLE_QUOTES] >> nd [inner] >> tk [TK_SINGLE_QUOTES]).

(** "{% keyword ... %}" *)
Definition tag (keywords : list kind) (rest : cm) : cm := block_open >> tk keywords >> rest >> block_close.
Definition simple_tag (keywords : list kind) : cm := block_open >> tk keywords >> block_close.
(** starting part, body, ending part *)
Definition wrapped (starting ending : kind) : cm := nd [starting] >> nd [BODY] >> nd [ending].

(** template, options of include and embed *)
Definition include_options : cm :=
  expr >> opt (tk [TK_IGNORE_MISSING]) >> opt (nd [TWIG_INCLUDE_WITH]) >> opt (tk [TK_ONLY]).

(** a ludtwig directive in a twig or html comment *)
Definition directive (keyword : kind) : cm :=
  (comment_open >> tk [keyword] >> nd [LUDTWIG_DIRECTIVE_RULE_LIST] >> comment_close)
  <|> (tk [TK_LESS_THAN_EXCLAMATION_MARK_MINUS_MINUS] >> tk [keyword] >> nd [LUDTWIG_DIRECTIVE_RULE_LIST]
       >> tk [TK_MINUS_MINUS_GREATER_THAN]).

(** [None]: the kind does not occur as a node. *)
Definition schema (k : kind) : option cm :=
  match k with
  | ROOT => Some (Many (nd elements))
  | BODY => Some (Many (nd elements) <|> Many (nd [HTML_RAW_TEXT])
                  <|> Many (nd (HTML_ATTRIBUTE :: twig_statements))
                  <|> Many (AnyTok <|> nd twig_statements))

  | TWIG_VAR => Some (var_open >> expr >> var_close)
  | TWIG_COMMENT => Some (comment_open >> Many AnyTok >> comment_close)
  | LUDTWIG_DIRECTIVE_IGNORE => Some (directive TK_LUDTWIG_IGNORE)
  | LUDTWIG_DIRECTIVE_FILE_IGNORE => Some (directive TK_LUDTWIG_IGNORE_FILE)
  | LUDTWIG_DIRECTIVE_RULE_LIST => Some (Many (tk [TK_WORD] >> opt comma))

  | TWIG_EXPRESSION => Some (nd expressions)
  | TWIG_BINARY_EXPRESSION =>
    Some (nd [TWIG_EXPRESSION; TWIG_BINARY_EXPRESSION] >> tk binary_operators >> opt expr)
  | TWIG_UNARY_EXPRESSION => Some (tk unary_operators >> opt expr)
  | TWIG_PARENTHESES_EXPRESSION => Some (tk [TK_OPEN_PARENTHESIS] >> opt expr >> tk [TK_CLOSE_PARENTHESIS])
  | TWIG_CONDITIONAL_EXPRESSION =>
    Some ((expr >> tk [TK_QUESTION_MARK] >> expr >> opt (tk [TK_COLON] >> expr))
          <|> (expr >> tk [TK_QUESTION_MARK] >> tk [TK_COLON] >> expr))
  | TWIG_OPERAND => Some (nd operands <|> (name >> nd [TWIG_ARGUMENTS]))
  | TWIG_FILTER => Some (nd [TWIG_OPERAND] >> tk [TK_SINGLE_PIPE] >> nd [TWIG_OPERAND])
  | TWIG_ACCESSOR => Some (nd [TWIG_OPERAND] >> tk [TK_DOT] >> nd [TWIG_OPERAND])
  | TWIG_INDEX_LOOKUP =>
    Some ((nd [TWIG_OPERAND] >> tk [TK_DOT] >> nd [TWIG_INDEX])
          <|> (nd [TWIG_OPERAND] >> tk [TK_OPEN_SQUARE] >> nd [TWIG_INDEX; TWIG_INDEX_RANGE] >> tk [TK_CLOSE_SQUARE]))
  | TWIG_INDEX => Some expr
  | TWIG_INDEX_RANGE => Some ((expr >> tk [TK_COLON] >> opt expr) <|> (tk [TK_COLON] >> expr))
  | TWIG_FUNCTION_CALL => Some (nd [TWIG_OPERAND] >> nd [TWIG_ARGUMENTS])
  | TWIG_ARROW_FUNCTION => Some (nd [TWIG_ARGUMENTS] >> tk [TK_EQUAL_GREATER_THAN] >> expr)
  | TWIG_ARGUMENTS =>
    Some ((tk [TK_OPEN_PARENTHESIS] >> commas (nd [TWIG_EXPRESSION; TWIG_NAMED_ARGUMENT]) >> tk [TK_CLOSE_PARENTHESIS])
          <|> name <|> expr
          <|> (tk [TK_OPEN_PARENTHESIS] >> name >> Many (comma >> opt name) >> tk [TK_CLOSE_PARENTHESIS]))
  | TWIG_NAMED_ARGUMENT => Some (tk [TK_WORD] >> tk [TK_EQUAL] >> opt expr)

  | TWIG_LITERAL_NAME => Some (tk [TK_WORD])
  | TWIG_LITERAL_NUMBER => Some (tk [TK_NUMBER])
  | TWIG_LITERAL_NULL => Some (tk [TK_NULL])
  | TWIG_LITERAL_BOOLEAN => Some (tk [TK_TRUE; TK_FALSE])
  | TWIG_LITERAL_STRING => Some (between_quotes TWIG_LITERAL_STRING_INNER)
  | TWIG_LITERAL_STRING_INNER => Some (Many (AnyTok <|> nd [TWIG_LITERAL_STRING_INTERPOLATION]))
  | TWIG_LITERAL_STRING_INTERPOLATION =>
    Some (tk [TK_HASHTAG] >> tk [TK_OPEN_CURLY] >> expr >> tk [TK_CLOSE_CURLY])
  | TWIG_LITERAL_ARRAY => Some (tk [TK_OPEN_SQUARE] >> nd [TWIG_LITERAL_ARRAY_INNER] >> tk [TK_CLOSE_SQUARE])
  | TWIG_LITERAL_ARRAY_INNER => Some (commas expr)
  | TWIG_LITERAL_HASH => Some (tk [TK_OPEN_CURLY] >> nd [TWIG_LITERAL_HASH_ITEMS] >> tk [TK_CLOSE_CURLY])
  | TWIG_LITERAL_HASH_ITEMS => Some (commas (nd [TWIG_LITERAL_HASH_PAIR]))
  | TWIG_LITERAL_HASH_PAIR => Some (nd [TWIG_LITERAL_HASH_KEY] >> opt (tk [TK_COLON] >> expr))
  | TWIG_LITERAL_HASH_KEY =>
    Some (nd [TWIG_LITERAL_NUMBER; TWIG_LITERAL_STRING]
          <|> (tk [TK_OPEN_PARENTHESIS] >> expr >> tk [TK_CLOSE_PARENTHESIS]) <|> tk [TK_WORD])

  | TWIG_BLOCK => Some (nd [TWIG_STARTING_BLOCK] <|> wrapped TWIG_STARTING_BLOCK TWIG_ENDING_BLOCK)
  | TWIG_STARTING_BLOCK => Some (tag [TK_BLOCK] (tk [TK_WORD] >> opt expr))
  | TWIG_ENDING_BLOCK => Some (tag [TK_ENDBLOCK] (opt (tk [TK_WORD])))
  | TWIG_IF => Some (nd [TWIG_IF_BLOCK] >> nd [BODY]
                     >> Many (nd [TWIG_ELSE_IF_BLOCK; TWIG_ELSE_BLOCK] >> nd [BODY]) >> nd [TWIG_ENDIF_BLOCK])
  | TWIG_IF_BLOCK => Some (tag [TK_IF] expr)
  | TWIG_ELSE_IF_BLOCK => Some (tag [TK_ELSE_IF] expr)
  | TWIG_ELSE_BLOCK => Some (simple_tag [TK_ELSE])
  | TWIG_ENDIF_BLOCK => Some (simple_tag [TK_ENDIF])
  | TWIG_SET => Some (nd [TWIG_SET_BLOCK] <|> wrapped TWIG_SET_BLOCK TWIG_ENDSET_BLOCK)
  | TWIG_SET_BLOCK => Some (tag [TK_SET] (nd [TWIG_ASSIGNMENT]))
  | TWIG_ASSIGNMENT => Some (list1 name >> opt (tk [TK_EQUAL] >> list1 expr))
  | TWIG_ENDSET_BLOCK => Some (simple_tag [TK_ENDSET])
  | TWIG_FOR => Some (nd [TWIG_FOR_BLOCK] >> nd [BODY] >> opt (nd [TWIG_FOR_ELSE_BLOCK] >> nd [BODY])
                      >> nd [TWIG_ENDFOR_BLOCK])
  | TWIG_FOR_BLOCK => Some (tag [TK_FOR] (name >> opt (comma >> name) >> tk [TK_IN] >> expr))
  | TWIG_FOR_ELSE_BLOCK => Some (simple_tag [TK_ELSE])
  | TWIG_ENDFOR_BLOCK => Some (simple_tag [TK_ENDFOR])
  | TWIG_EXTENDS => Some (tag [TK_EXTENDS] expr)
  | TWIG_INCLUDE => Some (tag [TK_INCLUDE] include_options)
  | TWIG_INCLUDE_WITH => Some (tk [TK_WITH] >> expr)
  | TWIG_USE => Some (tag [TK_USE; TK_SW_USE] (string_ >> opt (tk [TK_WITH] >> list1 (nd [TWIG_OVERRIDE]))))
  | TWIG_OVERRIDE => Some (name >> opt (tk [TK_AS] >> name))
  | TWIG_APPLY => Some (wrapped TWIG_APPLY_STARTING_BLOCK TWIG_APPLY_ENDING_BLOCK)
  | TWIG_APPLY_STARTING_BLOCK =>
    Some (tag [TK_APPLY] (name <|> (name >> nd [TWIG_ARGUMENTS]) <|> nd [TWIG_FILTER]))
  | TWIG_APPLY_ENDING_BLOCK => Some (simple_tag [TK_ENDAPPLY])
  | TWIG_AUTOESCAPE => Some (wrapped TWIG_AUTOESCAPE_STARTING_BLOCK TWIG_AUTOESCAPE_ENDING_BLOCK)
  | TWIG_AUTOESCAPE_STARTING_BLOCK => Some (tag [TK_AUTOESCAPE] (opt (string_ <|> tk [TK_FALSE])))
  | TWIG_AUTOESCAPE_ENDING_BLOCK => Some (simple_tag [TK_ENDAUTOESCAPE])
  | TWIG_DEPRECATED => Some (tag [TK_DEPRECATED] string_)
  | TWIG_DO => Some (tag [TK_DO] expr)
  | TWIG_EMBED => Some (wrapped TWIG_EMBED_STARTING_BLOCK TWIG_EMBED_ENDING_BLOCK)
  | TWIG_EMBED_STARTING_BLOCK => Some (tag [TK_EMBED; TK_SW_EMBED] include_options)
  | TWIG_EMBED_ENDING_BLOCK => Some (simple_tag [TK_ENDEMBED; TK_SW_END_EMBED])
  | TWIG_FLUSH => Some (simple_tag [TK_FLUSH])
  | TWIG_FROM => Some (tag [TK_FROM; TK_SW_FROM]
                         (expr >> tk [TK_IMPORT; TK_SW_IMPORT] >> list1 (nd [TWIG_OVERRIDE])))
  | TWIG_IMPORT => Some (tag [TK_IMPORT; TK_SW_IMPORT] (expr >> tk [TK_AS] >> name))
  | TWIG_SANDBOX => Some (wrapped TWIG_SANDBOX_STARTING_BLOCK TWIG_SANDBOX_ENDING_BLOCK)
  | TWIG_SANDBOX_STARTING_BLOCK => Some (simple_tag [TK_SANDBOX])
  | TWIG_SANDBOX_ENDING_BLOCK => Some (simple_tag [TK_ENDSANDBOX])
  | TWIG_VERBATIM => Some (wrapped TWIG_VERBATIM_STARTING_BLOCK TWIG_VERBATIM_ENDING_BLOCK)
  | TWIG_VERBATIM_STARTING_BLOCK => Some (simple_tag [TK_VERBATIM])
  | TWIG_VERBATIM_ENDING_BLOCK => Some (simple_tag [TK_ENDVERBATIM])
  | TWIG_MACRO => Some (wrapped TWIG_MACRO_STARTING_BLOCK TWIG_MACRO_ENDING_BLOCK)
  | TWIG_MACRO_STARTING_BLOCK => Some (tag [TK_MACRO] (tk [TK_WORD] >> nd [TWIG_ARGUMENTS]))
  | TWIG_MACRO_ENDING_BLOCK => Some (tag [TK_ENDMACRO] (opt (tk [TK_WORD])))
  | TWIG_WITH => Some (wrapped TWIG_WITH_STARTING_BLOCK TWIG_WITH_ENDING_BLOCK)
  | TWIG_WITH_STARTING_BLOCK => Some (tag [TK_WITH] (opt expr >> opt (tk [TK_ONLY])))
  | TWIG_WITH_ENDING_BLOCK => Some (simple_tag [TK_ENDWITH])
  | TWIG_CACHE => Some (wrapped TWIG_CACHE_STARTING_BLOCK TWIG_CACHE_ENDING_BLOCK)
  | TWIG_CACHE_STARTING_BLOCK =>
    Some (tag [TK_CACHE] (expr >> opt (nd [TWIG_CACHE_TTL]) >> opt (nd [TWIG_CACHE_TAGS])))
  | TWIG_CACHE_TTL => Some (tk [TK_TTL] >> tk [TK_OPEN_PARENTHESIS] >> expr >> tk [TK_CLOSE_PARENTHESIS])
  | TWIG_CACHE_TAGS => Some (tk [TK_TAGS] >> tk [TK_OPEN_PARENTHESIS] >> expr >> tk [TK_CLOSE_PARENTHESIS])
  | TWIG_CACHE_ENDING_BLOCK => Some (simple_tag [TK_ENDCACHE])
  | TWIG_TRANS => Some (wrapped TWIG_TRANS_STARTING_BLOCK TWIG_TRANS_ENDING_BLOCK)
  | TWIG_TRANS_STARTING_BLOCK => Some (simple_tag [TK_TRANS])
  | TWIG_TRANS_ENDING_BLOCK => Some (simple_tag [TK_ENDTRANS])
  | TWIG_COMPONENT => Some (wrapped TWIG_COMPONENT_STARTING_BLOCK TWIG_COMPONENT_ENDING_BLOCK)
  | TWIG_COMPONENT_STARTING_BLOCK =>
    Some (tag [TK_COMPONENT] (name >> opt (tk [TK_WITH] >> nd [TWIG_LITERAL_HASH])))
  | TWIG_COMPONENT_ENDING_BLOCK => Some (simple_tag [TK_ENDCOMPONENT])
  | TWIG_PROPS => Some (tag [TK_PROPS] (Many (nd [TWIG_PROP_DECLARATION] >> comma) >> opt (nd [TWIG_PROP_DECLARATION])))
  | TWIG_PROP_DECLARATION => Some (name >> opt (tk [TK_EQUAL] >> expr))

  | SHOPWARE_TWIG_SW_EXTENDS => Some (tag [TK_SW_EXTENDS] string_)
  | SHOPWARE_TWIG_SW_INCLUDE => Some (tag [TK_SW_INCLUDE] include_options)
  | SHOPWARE_SILENT_FEATURE_CALL =>
    Some (wrapped SHOPWARE_SILENT_FEATURE_CALL_STARTING_BLOCK SHOPWARE_SILENT_FEATURE_CALL_ENDING_BLOCK)
  | SHOPWARE_SILENT_FEATURE_CALL_STARTING_BLOCK => Some (tag [TK_SW_SILENT_FEATURE_CALL] string_)
  | SHOPWARE_SILENT_FEATURE_CALL_ENDING_BLOCK => Some (simple_tag [TK_ENDSW_SILENT_FEATURE_CALL])
  | SHOPWARE_RETURN => Some (tag [TK_RETURN] (opt expr))
  | SHOPWARE_ICON => Some (tag [TK_SW_ICON] (expr >> opt (nd [SHOPWARE_ICON_STYLE])))
  | SHOPWARE_ICON_STYLE => Some (tk [TK_STYLE] >> expr)
  | SHOPWARE_THUMBNAILS => Some (tag [TK_SW_THUMBNAILS] (expr >> opt (nd [SHOPWARE_THUMBNAILS_WITH])))
  | SHOPWARE_THUMBNAILS_WITH => Some (tk [TK_WITH] >> expr)

  | HTML_TAG => Some (nd [HTML_STARTING_TAG] <|> wrapped HTML_STARTING_TAG HTML_ENDING_TAG)
  | HTML_STARTING_TAG =>
    Some (tk [TK_LESS_THAN] >> tk [TK_WORD; TK_TWIG_COMPONENT_NAME] >> nd [HTML_ATTRIBUTE_LIST]
          >> tk [TK_GREATER_THAN; TK_SLASH_GREATER_THAN])
  | HTML_ENDING_TAG =>
    Some (tk [TK_LESS_THAN_SLASH] >> tk [TK_WORD; TK_TWIG_COMPONENT_NAME] >> tk [TK_GREATER_THAN])
  | HTML_ATTRIBUTE_LIST => Some (Many (nd (HTML_ATTRIBUTE :: twig_statements)))
  | HTML_ATTRIBUTE => Some ((tk [TK_WORD] <|> nd [TWIG_VAR]) >> opt (tk [TK_EQUAL] >> nd [HTML_STRING]))
  | HTML_STRING => Some (between_quotes HTML_STRING_INNER <|> nd [HTML_STRING_INNER])
  | HTML_STRING_INNER => Some (Many (AnyTok <|> nd twig_statements))
  | HTML_TEXT => Some (Many AnyTok)
  | HTML_RAW_TEXT => Some (Many (AnyTok <|> nd twig_statements))
  | HTML_COMMENT => Some (tk [TK_LESS_THAN_EXCLAMATION_MARK_MINUS_MINUS] >> Many AnyTok >> tk [TK_MINUS_MINUS_GREATER_THAN])
  | HTML_DOCTYPE =>
    Some (tk [TK_LESS_THAN_EXCLAMATION_MARK] >> tk [TK_DOCTYPE] >> tk [TK_WORD] >> tk [TK_GREATER_THAN])
  | _ => None
  end.

(** The children [cs] fit a node of kind [k]. *)
Definition conforms (k : kind) (cs : list tree) : Prop :=
  match schema k with Some m => sem m (content cs) | None => False end.

(** * Parts that belong together *)

Definition nodes (cs : list tree) : list tree :=
  filter (fun t => match t with Node _ _ => true | Leaf _ _ => false end) cs.
Definition has (s : sym) (t : tree) : Prop := In s (content (children t)).

(** The name in a starting or ending part: the text of its first word. *)
Definition is_name (k : kind) : bool := kind_eqb k TK_WORD || kind_eqb k TK_TWIG_COMPONENT_NAME.
Fixpoint first_name (cs : list tree) : option text :=
  match cs with
  | [] => None
  | Leaf k s :: r => if is_name k then Some s else first_name r
  | Node _ _ :: r => first_name r
  end.
Definition part_name (t : tree) : option text := first_name (children t).

(** html elements without an ending tag *)
Definition void_elements : list text :=
  map txt ["area"; "base"; "br"; "col"; "command"; "embed"; "hr"; "img"; "input"; "keygen";
           "link"; "meta"; "param"; "source"; "track"; "wbr"]%string.

(** The ending part repeats the name of the starting part, or has no name at all. *)
Definition same_or_no_name (s e : tree) : Prop :=
  exists n, part_name s = Some n /\ (part_name e = None \/ part_name e = Some n).

(** No character unknown to the lexer is among the children. *)
Definition known (cs : list tree) : Prop := forall s, ~ In (Leaf TK_UNKNOWN s) cs.

(** An attribute value without quotes is one word or one output. *)
Definition plain_value (cs : list tree) : Prop :=
  content cs = [Nd HTML_STRING_INNER] -> forall i, In i (nodes cs) -> content (children i) = [Tok TK_WORD] \/ content (children i) = [Nd TWIG_VAR].

Definition agrees (k : kind) (cs : list tree) : Prop :=
  match k with
  | TWIG_BINARY_EXPRESSION | TWIG_LITERAL_STRING => known cs
  | HTML_STRING => known cs /\ plain_value cs
  | HTML_TEXT => cs <> []
  | HTML_TAG =>
    match nodes cs with
    | [s] => exists n, part_name s = Some n /\
               (has (Tok TK_SLASH_GREATER_THAN) s \/ In (map to_lower_ascii n) void_elements)
    | [s; _; e] => exists n, part_name s = Some n /\ part_name e = Some n /\
               ~ has (Tok TK_SLASH_GREATER_THAN) s /\ ~ In (map to_lower_ascii n) void_elements
    | _ => False
    end
  | TWIG_BLOCK =>
    match nodes cs with
    | [s] => has (Nd TWIG_EXPRESSION) s
    | [s; _; e] => ~ has (Nd TWIG_EXPRESSION) s /\ same_or_no_name s e
    | _ => False
    end
  | TWIG_MACRO =>
    match nodes cs with
    | [s; _; e] => same_or_no_name s e
    | _ => False
    end
  | TWIG_EMBED =>
    match nodes cs with
    | [s; _; e] => has (Tok TK_SW_EMBED) s <-> has (Tok TK_SW_END_EMBED) e
    | _ => False
    end
  | TWIG_SET =>
    match nodes cs with
    | [s] => exists a, In a (children s) /\ tree_kind a = TWIG_ASSIGNMENT /\ has (Tok TK_EQUAL) a
    | [s; _; _] => forall a, In a (children s) -> tree_kind a = TWIG_ASSIGNMENT -> ~ has (Tok TK_EQUAL) a
    | _ => False
    end
  | TWIG_ASSIGNMENT =>
    (* as many values as names *)
    In (Tok TK_EQUAL) (content cs) ->
    List.length (filter (fun t => kind_eqb (tree_kind t) TWIG_LITERAL_NAME) (nodes cs))
    = List.length (filter (fun t => kind_eqb (tree_kind t) TWIG_EXPRESSION) (nodes cs))
  | _ => True
  end.

(** A node as it is in a template without syntax errors. *)
Definition well_formed (k : kind) (cs : list tree) : Prop := conforms k cs /\ agrees k cs.
