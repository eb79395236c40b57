(** A grammar of templates: Twig expressions, Twig tags and HTML, written down as inductive
    definitions on token lists without white space.  It says what a well-formed template is
    and mentions neither recovery nor any function of the parser; PropAccept.v proves that
    the parser accepts all of it.

    Not part of the grammar, because the parser rejects or misreads them (see DESIGN.md):
    arrow functions outside of argument lists and with more than one parameter, names with
    characters the lexer does not know, a "<" in text, ">" and "<" in attribute values,
    unquoted attribute values other than one word, and component tags in attribute values,
    scripts and styles. *)
From Coq Require Import NArith String Bool Arith List.
Import ListNotations.
From Verif Require Import Text Kind Lexer ParserApi.
Local Open Scope list_scope.

(** * Tokens *)

(** The token has one of the given kinds. *)
Definition is (ks : list kind) (t : token) : Prop := In (tk_kind t) ks.

Definition letter (c : N) : Prop := (97 <= c <= 122 \/ 65 <= c <= 90)%N.
Definition digit (c : N) : Prop := (48 <= c <= 57)%N.

(** A Twig name: letters, digits, underscores and the characters U+007F to U+00FF, not
    starting with a digit. *)
Definition name_start (c : N) : Prop := letter c \/ c = 95%N \/ (127 <= c <= 255)%N.
Definition named (t : token) : Prop :=
  tk_kind t <> TK_UNKNOWN /\
  exists c w, tk_text t = c :: w /\ name_start c /\ Forall (fun c => name_start c \/ digit c) w.

(** Infix operators. *)
Definition BINARY : list kind :=
  [TK_OR; TK_DOUBLE_PIPE; TK_AND; TK_DOUBLE_AMPERSAND; TK_BINARY_OR; TK_BINARY_XOR; TK_BINARY_AND;
   TK_DOUBLE_EQUAL; TK_EXCLAMATION_MARK_EQUALS; TK_LESS_THAN_EQUAL_GREATER_THAN; TK_LESS_THAN; TK_GREATER_THAN;
   TK_GREATER_THAN_EQUAL; TK_LESS_THAN_EQUAL; TK_IN; TK_NOT_IN; TK_MATCHES; TK_STARTS_WITH; TK_ENDS_WITH;
   TK_TRIPLE_EQUAL; TK_EXCLAMATION_MARK_DOUBLE_EQUALS; TK_DOUBLE_DOT; TK_PLUS; TK_MINUS; TK_TILDE; TK_STAR;
   TK_FORWARD_SLASH; TK_DOUBLE_FORWARD_SLASH; TK_PERCENT; TK_IS; TK_IS_NOT; TK_DOUBLE_STAR; TK_DOUBLE_QUESTION_MARK].
(** Prefix operators. *)
Definition UNARY : list kind := [TK_NOT; TK_PLUS; TK_MINUS; TK_TRIPLE_DOT].
(** The two tests whose name consists of two words. *)
Definition TWO_WORD_TESTS : list kind := [TK_SAME_AS; TK_DIVISIBLE_BY].

(** A name that is no operator and no literal. *)
Definition variable (t : token) : Prop :=
  named t /\ ~ In (tk_kind t) (BINARY ++ UNARY ++ TWO_WORD_TESTS ++ [TK_NULL; TK_TRUE; TK_FALSE]).

Definition QUOTES : list kind := [TK_DOUBLE_QUOTES; TK_SINGLE_QUOTES].
Definition TAG_OPEN : list kind := [TK_CURLY_PERCENT; TK_CURLY_PERCENT_MINUS; TK_CURLY_PERCENT_TILDE].
Definition TAG_CLOSE : list kind := [TK_PERCENT_CURLY; TK_MINUS_PERCENT_CURLY; TK_TILDE_PERCENT_CURLY].
Definition VAR_OPEN : list kind := [TK_OPEN_CURLY_CURLY; TK_OPEN_CURLY_CURLY_MINUS; TK_OPEN_CURLY_CURLY_TILDE].
Definition VAR_CLOSE : list kind := [TK_CLOSE_CURLY_CURLY; TK_MINUS_CLOSE_CURLY_CURLY; TK_TILDE_CLOSE_CURLY_CURLY].
Definition COMMENT_OPEN : list kind := [TK_OPEN_CURLY_HASHTAG; TK_OPEN_CURLY_HASHTAG_MINUS; TK_OPEN_CURLY_HASHTAG_TILDE].
Definition COMMENT_CLOSE : list kind := [TK_HASHTAG_CLOSE_CURLY; TK_MINUS_HASHTAG_CLOSE_CURLY; TK_TILDE_HASHTAG_CLOSE_CURLY].

(** * Expressions *)

(** [expr b l]: the tokens [l] are an expression; [b = false] if it ends in a conditional
    without an else part, so that a colon behind it would belong to it. *)
Inductive expr : bool -> list token -> Prop :=
| expr_intro b a p q : operand a -> ops p -> cond b q -> expr b (a ++ p ++ q)
(** Nothing, "? x : y", "? : y" or "? x" *)
with cond : bool -> list token -> Prop :=
| cond_none : cond true []
| cond_full q x c b y : is [TK_QUESTION_MARK] q -> expr true x -> is [TK_COLON] c -> expr b y -> cond b (q :: x ++ c :: y)
| cond_else q c b y : is [TK_QUESTION_MARK] q -> is [TK_COLON] c -> expr b y -> cond b (q :: c :: y)
| cond_then q b x : is [TK_QUESTION_MARK] q -> expr b x -> cond false (q :: x)
with operand : list token -> Prop :=
| operand_unary u a : is UNARY u -> operand a -> operand (u :: a)
| operand_primary m f : primary m -> postfix f -> operand (m ++ f)
(** Infix operators with their right operands; "is same as x" *)
with ops : list token -> Prop :=
| ops_nil : ops []
| ops_binary o a p : is BINARY o -> operand a -> ops p -> ops (o :: a ++ p)
| ops_test o s t a p : is [TK_IS; TK_IS_NOT] o -> is TWO_WORD_TESTS s ->
    operand (t :: a) -> ~ is [TK_OPEN_PARENTHESIS] t -> ops p -> ops (o :: s :: t :: a ++ p)
with primary : list token -> Prop :=
| primary_literal t : is [TK_NUMBER; TK_NULL; TK_TRUE; TK_FALSE] t -> primary [t]
| primary_variable t : variable t -> primary [t]
| primary_call t l : variable t \/ is TWO_WORD_TESTS t -> call l -> primary (t :: l)
| primary_paren o b e c : is [TK_OPEN_PARENTHESIS] o -> expr b e -> is [TK_CLOSE_PARENTHESIS] c -> primary (o :: e ++ [c])
| primary_string l : str true l -> primary l
| primary_array o l c : is [TK_OPEN_SQUARE] o -> exprs l -> is [TK_CLOSE_SQUARE] c -> primary (o :: l ++ [c])
| primary_hash l : hash l -> primary l
(** What follows an operand: ".name", ".0", ".name(x)", "[x]", "[x:y]", "[:y]", "[x:]", "|name", "|name(x)" *)
with postfix : list token -> Prop :=
| postfix_nil : postfix []
| postfix_dot d t f : is [TK_DOT] d -> named t \/ is [TK_NUMBER] t -> postfix f -> postfix (d :: t :: f)
| postfix_method d t l f : is [TK_DOT] d -> named t -> call l -> postfix f -> postfix (d :: t :: l ++ f)
| postfix_index o b x c f : is [TK_OPEN_SQUARE] o -> expr b x -> is [TK_CLOSE_SQUARE] c -> postfix f ->
    postfix (o :: x ++ c :: f)
| postfix_slice o x m b y c f : is [TK_OPEN_SQUARE] o -> expr true x -> is [TK_COLON] m -> expr b y ->
    is [TK_CLOSE_SQUARE] c -> postfix f -> postfix (o :: x ++ m :: y ++ c :: f)
| postfix_slice_to o m b y c f : is [TK_OPEN_SQUARE] o -> is [TK_COLON] m -> expr b y ->
    is [TK_CLOSE_SQUARE] c -> postfix f -> postfix (o :: m :: y ++ c :: f)
| postfix_slice_from o x m c f : is [TK_OPEN_SQUARE] o -> expr true x -> is [TK_COLON] m ->
    is [TK_CLOSE_SQUARE] c -> postfix f -> postfix (o :: x ++ m :: c :: f)
| postfix_filter l f : filter_call l -> postfix f -> postfix (l ++ f)
with filter_call : list token -> Prop :=
| filter_plain p t : is [TK_SINGLE_PIPE] p -> named t -> filter_call [p; t]
| filter_args p t l : is [TK_SINGLE_PIPE] p -> named t -> call l -> filter_call (p :: t :: l)
(** Arguments in parentheses *)
with call : list token -> Prop :=
| call_intro o l c : is [TK_OPEN_PARENTHESIS] o -> args l -> is [TK_CLOSE_PARENTHESIS] c -> call (o :: l ++ [c])
with args : list token -> Prop :=
| args_nil : args []
| args_one x : arg x -> args x
| args_cons x c l : arg x -> is [TK_COMMA] c -> args l -> args (x ++ c :: l)
(** "x", "name = x", "name => x" *)
with arg : list token -> Prop :=
| arg_expr b x : expr b x -> arg x
| arg_named n q b x : is [TK_WORD] n -> is [TK_EQUAL] q -> expr b x -> arg (n :: q :: x)
| arg_arrow n q b x : variable n -> is [TK_EQUAL_GREATER_THAN] q -> expr b x -> arg (n :: q :: x)
with exprs : list token -> Prop :=
| exprs_nil : exprs []
| exprs_one b x : expr b x -> exprs x
| exprs_cons b x c l : expr b x -> is [TK_COMMA] c -> exprs l -> exprs (x ++ c :: l)
(** "{ key: value, ... }" *)
with hash : list token -> Prop :=
| hash_intro o l c : is [TK_OPEN_CURLY] o -> pairs l -> is [TK_CLOSE_CURLY] c -> hash (o :: l ++ [c])
with pairs : list token -> Prop :=
| pairs_nil : pairs []
| pairs_one x : pair x -> pairs x
| pairs_cons x c l : pair x -> is [TK_COMMA] c -> pairs l -> pairs (x ++ c :: l)
with pair : list token -> Prop :=
| pair_short k : key k -> pair k
| pair_full k c b x : key k -> is [TK_COLON] c -> expr b x -> pair (k ++ c :: x)
with key : list token -> Prop :=
| key_number t : is [TK_NUMBER] t -> key [t]
| key_name t : named t -> key [t]
| key_string l : str false l -> key l
| key_paren o b e c : is [TK_OPEN_PARENTHESIS] o -> expr b e -> is [TK_CLOSE_PARENTHESIS] c -> key (o :: e ++ [c])
(** A string; [i]: interpolation is allowed (in double quotes only) *)
with str : bool -> list token -> Prop :=
| str_double i q l c : is [TK_DOUBLE_QUOTES] q -> chars TK_DOUBLE_QUOTES i l -> is [TK_DOUBLE_QUOTES] c -> str i (q :: l ++ [c])
| str_single i q l c : is [TK_SINGLE_QUOTES] q -> chars TK_SINGLE_QUOTES false l -> is [TK_SINGLE_QUOTES] c -> str i (q :: l ++ [c])
with chars : kind -> bool -> list token -> Prop :=
| chars_nil q i : chars q i []
(** any token but the quote; a backslash is followed by something else than the quote, and
    a "#" by something else than "{" *)
| chars_token q i t l : ~ is [q] t -> (is [TK_BACKWARD_SLASH] t -> exists u l', l = u :: l' /\ ~ is [q] u) ->
    (is [TK_HASHTAG] t -> forall u l', l = u :: l' -> ~ is [TK_OPEN_CURLY] u) -> chars q i l -> chars q i (t :: l)
| chars_escape q i s t l : is [TK_BACKWARD_SLASH] s -> is [q] t -> chars q i l -> chars q i (s :: t :: l)
| chars_interpolation q h o b e c l : is [TK_HASHTAG] h -> is [TK_OPEN_CURLY] o -> expr b e -> is [TK_CLOSE_CURLY] c ->
    chars q true l -> chars q true (h :: o :: e ++ c :: l).

(** * Twig statements and HTML *)

(** Where a piece of template stands: among elements, in a script or style, in an attribute
    value in double or single quotes, or in the attribute list of a tag. *)
Inductive place : Set := InBody | InRaw | InDouble | InSingle | InAttributes.

Definition var_statement (l : list token) : Prop :=
  exists o b e c, l = o :: e ++ [c] /\ is VAR_OPEN o /\ expr b e /\ is VAR_CLOSE c.

Definition DIRECTIVES : list kind := [TK_LUDTWIG_IGNORE_FILE; TK_LUDTWIG_IGNORE].

(** Rule names, separated by commas *)
Inductive rule_names : list token -> Prop :=
| rule_names_nil : rule_names []
| rule_names_one t : is [TK_WORD] t -> rule_names [t]
| rule_names_cons t c l : is [TK_WORD] t -> is [TK_COMMA] c -> rule_names l -> rule_names (t :: c :: l).

(** The inside of a comment that ends in one of [close]: anything, or a directive *)
Definition comment_inner (close : list kind) (l : list token) : Prop :=
  (Forall (fun t => ~ is close t) l /\ (forall t l', l = t :: l' -> ~ is DIRECTIVES t)) \/
  (exists d r, l = d :: r /\ is DIRECTIVES d /\ rule_names r).

Definition comment_statement (l : list token) : Prop :=
  exists o i c, l = o :: i ++ [c] /\ is COMMENT_OPEN o /\ comment_inner COMMENT_CLOSE i /\ is COMMENT_CLOSE c.

(** "{% keyword ... %}" *)
Definition tag (kw : list kind) (inside l : list token) : Prop :=
  exists o k c, l = o :: k :: inside ++ [c] /\ is TAG_OPEN o /\ is kw k /\ is TAG_CLOSE c.

(** ", name" / "name as name" lists *)
Definition override (l : list token) : Prop :=
  (exists n, l = [n] /\ named n) \/ (exists n a m, l = [n; a; m] /\ named n /\ is [TK_AS] a /\ named m).
Inductive overrides : list token -> Prop :=
| overrides_one x : override x -> overrides x
| overrides_last x c : override x -> is [TK_COMMA] c -> overrides (x ++ [c])
| overrides_cons x c l : override x -> is [TK_COMMA] c -> overrides l -> overrides (x ++ c :: l).

(** Names and expressions separated by commas, with their number *)
Inductive name_list : nat -> list token -> Prop :=
| name_list_one t : named t -> name_list 1 [t]
| name_list_cons n t c l : named t -> is [TK_COMMA] c -> name_list n l -> name_list (S n) (t :: c :: l).
Inductive expr_list : nat -> list token -> Prop :=
| expr_list_one b x : expr b x -> expr_list 1 x
| expr_list_cons n b x c l : expr b x -> is [TK_COMMA] c -> expr_list n l -> expr_list (S n) (x ++ c :: l).

(** Properties with defaults *)
Inductive props : list token -> Prop :=
| props_nil : props []
| props_one x : prop_declaration x -> props x
| props_cons x c l : prop_declaration x -> is [TK_COMMA] c -> props l -> props (x ++ c :: l)
with prop_declaration : list token -> Prop :=
| prop_plain t : named t -> prop_declaration [t]
| prop_default t q b x : named t -> is [TK_EQUAL] q -> expr b x -> prop_declaration (t :: q :: x).

(** "[ignore missing] [with x] [only]" *)
Definition optional (P : list token -> Prop) (l : list token) : Prop := l = [] \/ P l.
Definition keyword (k : kind) (l : list token) : Prop := exists t, l = [t] /\ is [k] t.
Definition with_value (k : kind) (l : list token) : Prop := exists t b x, l = t :: x /\ is [k] t /\ expr b x.
Definition include_options (l : list token) : Prop :=
  exists i w o, l = i ++ w ++ o /\ optional (keyword TK_IGNORE_MISSING) i /\ optional (with_value TK_WITH) w /\
    optional (keyword TK_ONLY) o.
(** "ttl(x)", "tags(x)" *)
Definition in_parens (k : kind) (l : list token) : Prop :=
  exists t o b x c, l = t :: o :: x ++ [c] /\ is [k] t /\ is [TK_OPEN_PARENTHESIS] o /\ expr b x /\ is [TK_CLOSE_PARENTHESIS] c.

(** Filters behind "apply" *)
Inductive filters : list token -> Prop :=
| filters_nil : filters []
| filters_cons x l : filter_call x -> filters l -> filters (x ++ l).

(** The inside of a tag that stands alone, by keyword. *)
Inductive simple_tag : list kind -> list token -> Prop :=
| simple_flush : simple_tag [TK_FLUSH] []
| simple_do b x : expr b x -> simple_tag [TK_DO; TK_EXTENDS] x
| simple_string l : str false l -> simple_tag [TK_DEPRECATED; TK_SW_EXTENDS] l
| simple_import b x a n : expr b x -> is [TK_AS] a -> named n -> simple_tag [TK_IMPORT; TK_SW_IMPORT] (x ++ [a; n])
| simple_from b x i l : expr b x -> is [TK_IMPORT; TK_SW_IMPORT] i -> overrides l ->
    simple_tag [TK_FROM; TK_SW_FROM] (x ++ i :: l)
| simple_use l : str false l -> simple_tag [TK_USE; TK_SW_USE] l
| simple_use_with s w l : str false s -> is [TK_WITH] w -> overrides l -> simple_tag [TK_USE; TK_SW_USE] (s ++ w :: l)
| simple_include b x l : expr b x -> include_options l -> simple_tag [TK_INCLUDE; TK_SW_INCLUDE] (x ++ l)
| simple_props l : props l -> simple_tag [TK_PROPS] l
| simple_return : simple_tag [TK_RETURN] []
| simple_return_value b x : expr b x -> simple_tag [TK_RETURN] x
| simple_icon b x l : expr b x -> optional (with_value TK_STYLE) l -> simple_tag [TK_SW_ICON] (x ++ l)
| simple_thumbnails b x l : expr b x -> optional (with_value TK_WITH) l -> simple_tag [TK_SW_THUMBNAILS] (x ++ l)
| simple_set n v q x : name_list n v -> is [TK_EQUAL] q -> expr_list n x -> simple_tag [TK_SET] (v ++ q :: x)
| simple_block n b x : is [TK_WORD] n -> expr b x -> simple_tag [TK_BLOCK] (n :: x).

(** The inside of an opening tag with its keyword, the keyword of the matching end tag, and
    what may stand in the end tag. *)
Inductive paired_tag : place -> kind -> list token -> kind -> (list token -> Prop) -> Prop :=
| paired_plain f k e : In (k, e) [(TK_SANDBOX, TK_ENDSANDBOX); (TK_VERBATIM, TK_ENDVERBATIM); (TK_TRANS, TK_ENDTRANS)] ->
    paired_tag f k [] e (fun l => l = [])
| paired_autoescape f l : optional (fun l => str false l \/ keyword TK_FALSE l) l ->
    paired_tag f TK_AUTOESCAPE l TK_ENDAUTOESCAPE (fun l => l = [])
| paired_with_plain f : paired_tag f TK_WITH [] TK_ENDWITH (fun l => l = [])
| paired_with f b x l : expr b x -> optional (keyword TK_ONLY) l -> paired_tag f TK_WITH (x ++ l) TK_ENDWITH (fun l => l = [])
| paired_cache f b x t g : expr b x -> optional (in_parens TK_TTL) t -> optional (in_parens TK_TAGS) g ->
    paired_tag f TK_CACHE (x ++ t ++ g) TK_ENDCACHE (fun l => l = [])
| paired_macro f n l : is [TK_WORD] n -> call l ->
    paired_tag f TK_MACRO (n :: l) TK_ENDMACRO (optional (fun l => exists m, l = [m] /\ is [TK_WORD] m /\ tk_text m = tk_text n))
| paired_apply f n l fs : named n -> optional call l -> filters fs ->
    paired_tag f TK_APPLY (n :: l ++ fs) TK_ENDAPPLY (fun l => l = [])
| paired_embed f k e b x l : In (k, e) [(TK_EMBED, TK_ENDEMBED); (TK_SW_EMBED, TK_SW_END_EMBED)] ->
    expr b x -> include_options l -> paired_tag f k (x ++ l) e (fun l => l = [])
| paired_set f t : named t -> paired_tag f TK_SET [t] TK_ENDSET (fun l => l = [])
| paired_block f n : is [TK_WORD] n ->
    paired_tag f TK_BLOCK [n] TK_ENDBLOCK (optional (fun l => exists m, l = [m] /\ is [TK_WORD] m /\ tk_text m = tk_text n))
| paired_component f n l : f = InBody \/ f = InAttributes -> named n ->
    optional (fun l => exists w h, l = w :: h /\ is [TK_WITH] w /\ hash h) l ->
    paired_tag f TK_COMPONENT (n :: l) TK_ENDCOMPONENT (fun l => l = [])
| paired_feature f l : str false l ->
    paired_tag f TK_SW_SILENT_FEATURE_CALL l TK_ENDSW_SILENT_FEATURE_CALL (fun l => l = []).

(** The inside of "{% for ... %}" *)
Definition for_inside (l : list token) : Prop :=
  exists v i b x, l = v ++ i :: x /\ ((exists t, v = [t] /\ named t) \/ exists t c u, v = [t; c; u] /\ named t /\ is [TK_COMMA] c /\ named u) /\
    is [TK_IN] i /\ expr b x.

(** HTML names *)
Definition word_char (c : N) : Prop := letter c \/ digit c \/ c = 95%N \/ c = 45%N.
Definition tag_name (t : token) : Prop :=
  tk_kind t = TK_TWIG_COMPONENT_NAME \/
  (tk_kind t <> TK_UNKNOWN /\
   exists c w, tk_text t = c :: w /\ letter c /\ Forall (fun c => letter c \/ digit c \/ c = 45%N) w).
Definition attribute_text (s : text) : Prop :=
  exists c w, Forall word_char w /\ letter c /\ (s = c :: w \/ exists d, In d [58; 64; 35; 95; 36]%N /\ s = d :: c :: w).
(** One token, or a colon and the token directly behind it *)
Inductive attribute_name : list token -> Prop :=
| attribute_name_one t : tk_kind t <> TK_UNKNOWN -> attribute_text (tk_text t) -> attribute_name [t]
| attribute_name_colon c t : is [TK_COLON] c -> tk_end c = tk_start t -> attribute_text (txt ":" ++ tk_text t) ->
    attribute_name [c; t].

Definition VOID : list text :=
  map txt ["area"; "base"; "br"; "col"; "command"; "embed"; "hr"; "img"; "input"; "keygen";
           "link"; "meta"; "param"; "source"; "track"; "wbr"]%string.
Definition RAW : list text := map txt ["script"; "style"; "textarea"; "title"]%string.
Definition lower (t : token) : text := map to_lower_ascii (tk_text t).

(** Tokens that may start something else than text *)
Definition STARTERS : list kind :=
  TAG_OPEN ++ VAR_OPEN ++ COMMENT_OPEN ++ [TK_LESS_THAN; TK_LESS_THAN_EXCLAMATION_MARK_MINUS_MINUS; TK_LESS_THAN_EXCLAMATION_MARK].
Definition plain (f : place) (t : token) : Prop :=
  match f with
  | InBody => ~ is (TK_LESS_THAN_SLASH :: STARTERS) t
  | InRaw => ~ is (TAG_OPEN ++ VAR_OPEN ++ COMMENT_OPEN) t
  | InDouble => ~ is (TK_DOUBLE_QUOTES :: TK_GREATER_THAN :: TK_SLASH_GREATER_THAN :: STARTERS) t
  | InSingle => ~ is (TK_SINGLE_QUOTES :: TK_GREATER_THAN :: TK_SLASH_GREATER_THAN :: STARTERS) t
  | InAttributes => False
  end.

(** Twig tags that stand at a place [f], with everything up to their end tag *)
Inductive block : place -> list token -> Prop :=
| block_simple f k i l : simple_tag k i -> tag k i l -> block f l
| block_paired f k i e E o b c j : paired_tag f k i e E -> tag [k] i o -> content f b -> E j -> tag [e] j c ->
    block f (o ++ b ++ c)
| block_if f b x o r : expr b x -> tag [TK_IF] x o -> branches f r -> block f (o ++ r)
| block_for f i o b c : for_inside i -> tag [TK_FOR] i o -> content f b -> tag [TK_ENDFOR] [] c -> block f (o ++ b ++ c)
| block_for_else f i o b e d c : for_inside i -> tag [TK_FOR] i o -> content f b -> tag [TK_ELSE] [] e -> content f d ->
    tag [TK_ENDFOR] [] c -> block f (o ++ b ++ e ++ d ++ c)
(** The rest of an if tag: the body, and "endif", "else" or "elseif" *)
with branches : place -> list token -> Prop :=
| branches_end f b c : content f b -> tag [TK_ENDIF] [] c -> branches f (b ++ c)
| branches_else f b e d c : content f b -> tag [TK_ELSE] [] e -> content f d -> tag [TK_ENDIF] [] c -> branches f (b ++ e ++ d ++ c)
| branches_elseif f b t x e r : content f b -> expr t x -> tag [TK_ELSE_IF] x e -> branches f r -> branches f (b ++ e ++ r)
(** A sequence of items *)
with content : place -> list token -> Prop :=
| content_nil f : content f []
| content_cons f x l : item f x -> content f l -> content f (x ++ l)
(** What Twig puts at a place; among attributes "{{ x }}" counts as an attribute *)
with statement : place -> list token -> Prop :=
| statement_block f l : block f l -> statement f l
| statement_comment f l : comment_statement l -> statement f l
| statement_var f l : f <> InAttributes -> var_statement l -> statement f l
with item : place -> list token -> Prop :=
| item_plain f t : plain f t -> item f [t]
| item_statement f l : statement f l -> item f l
| item_attribute n v : attribute_name n -> value v -> item InAttributes (n ++ v)
| item_attribute_var n v : var_statement n -> value v -> item InAttributes (n ++ v)
| item_element o n a g b s m c : is [TK_LESS_THAN] o -> tk_end o = tk_start n -> tag_name n -> content InAttributes a ->
    is [TK_GREATER_THAN] g -> ~ In (lower n) VOID -> ~ In (lower n) RAW -> content InBody b ->
    is [TK_LESS_THAN_SLASH] s -> tk_kind m = tk_kind n -> tk_text m = tk_text n -> is [TK_GREATER_THAN] c ->
    item InBody (o :: n :: a ++ g :: b ++ [s; m; c])
| item_raw_element o n a g b s m c : is [TK_LESS_THAN] o -> tk_end o = tk_start n -> tag_name n -> content InAttributes a ->
    is [TK_GREATER_THAN] g -> ~ In (lower n) VOID -> In (lower n) RAW -> raw_content n b ->
    is [TK_LESS_THAN_SLASH] s -> tk_kind m = tk_kind n -> tk_text m = tk_text n -> is [TK_GREATER_THAN] c ->
    item InBody (o :: n :: a ++ g :: b ++ [s; m; c])
| item_void o n a g : is [TK_LESS_THAN] o -> tk_end o = tk_start n -> tag_name n -> content InAttributes a ->
    (is [TK_GREATER_THAN] g /\ In (lower n) VOID \/ is [TK_SLASH_GREATER_THAN] g) -> item InBody (o :: n :: a ++ [g])
| item_html_comment o i c : is [TK_LESS_THAN_EXCLAMATION_MARK_MINUS_MINUS] o -> comment_inner [TK_MINUS_MINUS_GREATER_THAN] i ->
    is [TK_MINUS_MINUS_GREATER_THAN] c -> item InBody (o :: i ++ [c])
| item_doctype o d w c : is [TK_LESS_THAN_EXCLAMATION_MARK] o -> is [TK_DOCTYPE] d -> is [TK_WORD] w -> is [TK_GREATER_THAN] c ->
    item InBody [o; d; w; c]
(** The inside of a script, style, textarea or title with the name [n]: no end tag of that name *)
with raw_content : token -> list token -> Prop :=
| raw_nil n : raw_content n []
| raw_plain n t l : plain InRaw t ->
    (is [TK_LESS_THAN_SLASH] t -> forall u l', l = u :: l' -> ~ (tk_kind u = tk_kind n /\ tk_text u = tk_text n)) ->
    raw_content n l -> raw_content n (t :: l)
| raw_statement n x l : statement InRaw x -> raw_content n l -> raw_content n (x ++ l)
(** Nothing, or "=" and the value of an attribute *)
with value : list token -> Prop :=
| value_none : value []
| value_word q w : is [TK_EQUAL] q -> is [TK_WORD] w -> value [q; w]
| value_var q l : is [TK_EQUAL] q -> var_statement l -> value (q :: l)
| value_double q o l c : is [TK_EQUAL] q -> is [TK_DOUBLE_QUOTES] o -> content InDouble l -> is [TK_DOUBLE_QUOTES] c -> value (q :: o :: l ++ [c])
| value_single q o l c : is [TK_EQUAL] q -> is [TK_SINGLE_QUOTES] o -> content InSingle l -> is [TK_SINGLE_QUOTES] c -> value (q :: o :: l ++ [c]).

Definition template (l : list token) : Prop := content InBody l.
