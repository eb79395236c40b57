(** The printed syntax tree: [debug_tree] (the [--inspect] option, and what the tests of the
    parser compare) and [debug_parse]. *)
From Coq Require Import List NArith Arith String Bool HexadecimalString HexadecimalN.
Import ListNotations.
From Verif Require Import Text Kind Lexer ParserApi GrammarTags Machine Red Render.
Local Open Scope list_scope.

(** untyped.rs:35-552: the derived [Debug] of SyntaxKind, the name of the variant *)
Definition kind_debug (k : kind) : string :=
  match k with
  | TK_WHITESPACE => "TK_WHITESPACE"
  | TK_LINE_BREAK => "TK_LINE_BREAK"
  | TK_WORD => "TK_WORD"
  | TK_TWIG_COMPONENT_NAME => "TK_TWIG_COMPONENT_NAME"
  | TK_NUMBER => "TK_NUMBER"
  | TK_HTML_ESCAPE_CHARACTER => "TK_HTML_ESCAPE_CHARACTER"
  | TK_DOT => "TK_DOT"
  | TK_DOUBLE_DOT => "TK_DOUBLE_DOT"
  | TK_TRIPLE_DOT => "TK_TRIPLE_DOT"
  | TK_COMMA => "TK_COMMA"
  | TK_COLON => "TK_COLON"
  | TK_SEMICOLON => "TK_SEMICOLON"
  | TK_EXCLAMATION_MARK => "TK_EXCLAMATION_MARK"
  | TK_EXCLAMATION_MARK_EQUALS => "TK_EXCLAMATION_MARK_EQUALS"
  | TK_EXCLAMATION_MARK_DOUBLE_EQUALS => "TK_EXCLAMATION_MARK_DOUBLE_EQUALS"
  | TK_QUESTION_MARK => "TK_QUESTION_MARK"
  | TK_DOUBLE_QUESTION_MARK => "TK_DOUBLE_QUESTION_MARK"
  | TK_PERCENT => "TK_PERCENT"
  | TK_TILDE => "TK_TILDE"
  | TK_SINGLE_PIPE => "TK_SINGLE_PIPE"
  | TK_DOUBLE_PIPE => "TK_DOUBLE_PIPE"
  | TK_AMPERSAND => "TK_AMPERSAND"
  | TK_DOUBLE_AMPERSAND => "TK_DOUBLE_AMPERSAND"
  | TK_FORWARD_SLASH => "TK_FORWARD_SLASH"
  | TK_DOUBLE_FORWARD_SLASH => "TK_DOUBLE_FORWARD_SLASH"
  | TK_BACKWARD_SLASH => "TK_BACKWARD_SLASH"
  | TK_OPEN_PARENTHESIS => "TK_OPEN_PARENTHESIS"
  | TK_CLOSE_PARENTHESIS => "TK_CLOSE_PARENTHESIS"
  | TK_OPEN_CURLY => "TK_OPEN_CURLY"
  | TK_CLOSE_CURLY => "TK_CLOSE_CURLY"
  | TK_OPEN_SQUARE => "TK_OPEN_SQUARE"
  | TK_CLOSE_SQUARE => "TK_CLOSE_SQUARE"
  | TK_LESS_THAN => "TK_LESS_THAN"
  | TK_LESS_THAN_EQUAL => "TK_LESS_THAN_EQUAL"
  | TK_LESS_THAN_EQUAL_GREATER_THAN => "TK_LESS_THAN_EQUAL_GREATER_THAN"
  | TK_LESS_THAN_SLASH => "TK_LESS_THAN_SLASH"
  | TK_LESS_THAN_EXCLAMATION_MARK => "TK_LESS_THAN_EXCLAMATION_MARK"
  | TK_DOCTYPE => "TK_DOCTYPE"
  | TK_GREATER_THAN => "TK_GREATER_THAN"
  | TK_GREATER_THAN_EQUAL => "TK_GREATER_THAN_EQUAL"
  | TK_EQUAL_GREATER_THAN => "TK_EQUAL_GREATER_THAN"
  | TK_SLASH_GREATER_THAN => "TK_SLASH_GREATER_THAN"
  | TK_LESS_THAN_EXCLAMATION_MARK_MINUS_MINUS => "TK_LESS_THAN_EXCLAMATION_MARK_MINUS_MINUS"
  | TK_MINUS_MINUS_GREATER_THAN => "TK_MINUS_MINUS_GREATER_THAN"
  | TK_EQUAL => "TK_EQUAL"
  | TK_DOUBLE_EQUAL => "TK_DOUBLE_EQUAL"
  | TK_TRIPLE_EQUAL => "TK_TRIPLE_EQUAL"
  | TK_PLUS => "TK_PLUS"
  | TK_MINUS => "TK_MINUS"
  | TK_STAR => "TK_STAR"
  | TK_DOUBLE_STAR => "TK_DOUBLE_STAR"
  | TK_DOUBLE_QUOTES => "TK_DOUBLE_QUOTES"
  | TK_SINGLE_QUOTES => "TK_SINGLE_QUOTES"
  | TK_GRAVE_ACCENT_QUOTES => "TK_GRAVE_ACCENT_QUOTES"
  | TK_CURLY_PERCENT => "TK_CURLY_PERCENT"
  | TK_CURLY_PERCENT_MINUS => "TK_CURLY_PERCENT_MINUS"
  | TK_CURLY_PERCENT_TILDE => "TK_CURLY_PERCENT_TILDE"
  | TK_PERCENT_CURLY => "TK_PERCENT_CURLY"
  | TK_MINUS_PERCENT_CURLY => "TK_MINUS_PERCENT_CURLY"
  | TK_TILDE_PERCENT_CURLY => "TK_TILDE_PERCENT_CURLY"
  | TK_OPEN_CURLY_CURLY => "TK_OPEN_CURLY_CURLY"
  | TK_OPEN_CURLY_CURLY_MINUS => "TK_OPEN_CURLY_CURLY_MINUS"
  | TK_OPEN_CURLY_CURLY_TILDE => "TK_OPEN_CURLY_CURLY_TILDE"
  | TK_CLOSE_CURLY_CURLY => "TK_CLOSE_CURLY_CURLY"
  | TK_MINUS_CLOSE_CURLY_CURLY => "TK_MINUS_CLOSE_CURLY_CURLY"
  | TK_TILDE_CLOSE_CURLY_CURLY => "TK_TILDE_CLOSE_CURLY_CURLY"
  | TK_OPEN_CURLY_HASHTAG => "TK_OPEN_CURLY_HASHTAG"
  | TK_OPEN_CURLY_HASHTAG_MINUS => "TK_OPEN_CURLY_HASHTAG_MINUS"
  | TK_OPEN_CURLY_HASHTAG_TILDE => "TK_OPEN_CURLY_HASHTAG_TILDE"
  | TK_HASHTAG_CLOSE_CURLY => "TK_HASHTAG_CLOSE_CURLY"
  | TK_MINUS_HASHTAG_CLOSE_CURLY => "TK_MINUS_HASHTAG_CLOSE_CURLY"
  | TK_TILDE_HASHTAG_CLOSE_CURLY => "TK_TILDE_HASHTAG_CLOSE_CURLY"
  | TK_HASHTAG => "TK_HASHTAG"
  | TK_TRUE => "TK_TRUE"
  | TK_FALSE => "TK_FALSE"
  | TK_BLOCK => "TK_BLOCK"
  | TK_ENDBLOCK => "TK_ENDBLOCK"
  | TK_IF => "TK_IF"
  | TK_ELSE_IF => "TK_ELSE_IF"
  | TK_ELSE => "TK_ELSE"
  | TK_ENDIF => "TK_ENDIF"
  | TK_APPLY => "TK_APPLY"
  | TK_ENDAPPLY => "TK_ENDAPPLY"
  | TK_AUTOESCAPE => "TK_AUTOESCAPE"
  | TK_ENDAUTOESCAPE => "TK_ENDAUTOESCAPE"
  | TK_CACHE => "TK_CACHE"
  | TK_ENDCACHE => "TK_ENDCACHE"
  | TK_DEPRECATED => "TK_DEPRECATED"
  | TK_DO => "TK_DO"
  | TK_EMBED => "TK_EMBED"
  | TK_ENDEMBED => "TK_ENDEMBED"
  | TK_EXTENDS => "TK_EXTENDS"
  | TK_FLUSH => "TK_FLUSH"
  | TK_FOR => "TK_FOR"
  | TK_ENDFOR => "TK_ENDFOR"
  | TK_FROM => "TK_FROM"
  | TK_IMPORT => "TK_IMPORT"
  | TK_MACRO => "TK_MACRO"
  | TK_ENDMACRO => "TK_ENDMACRO"
  | TK_SANDBOX => "TK_SANDBOX"
  | TK_ENDSANDBOX => "TK_ENDSANDBOX"
  | TK_SET => "TK_SET"
  | TK_ENDSET => "TK_ENDSET"
  | TK_USE => "TK_USE"
  | TK_VERBATIM => "TK_VERBATIM"
  | TK_ENDVERBATIM => "TK_ENDVERBATIM"
  | TK_ONLY => "TK_ONLY"
  | TK_IGNORE_MISSING => "TK_IGNORE_MISSING"
  | TK_WITH => "TK_WITH"
  | TK_ENDWITH => "TK_ENDWITH"
  | TK_TTL => "TK_TTL"
  | TK_TAGS => "TK_TAGS"
  | TK_PROPS => "TK_PROPS"
  | TK_COMPONENT => "TK_COMPONENT"
  | TK_ENDCOMPONENT => "TK_ENDCOMPONENT"
  | TK_NOT => "TK_NOT"
  | TK_NOT_IN => "TK_NOT_IN"
  | TK_OR => "TK_OR"
  | TK_AND => "TK_AND"
  | TK_BINARY_OR => "TK_BINARY_OR"
  | TK_BINARY_XOR => "TK_BINARY_XOR"
  | TK_BINARY_AND => "TK_BINARY_AND"
  | TK_IN => "TK_IN"
  | TK_MATCHES => "TK_MATCHES"
  | TK_STARTS_WITH => "TK_STARTS_WITH"
  | TK_ENDS_WITH => "TK_ENDS_WITH"
  | TK_IS => "TK_IS"
  | TK_IS_NOT => "TK_IS_NOT"
  | TK_EVEN => "TK_EVEN"
  | TK_ODD => "TK_ODD"
  | TK_DEFINED => "TK_DEFINED"
  | TK_SAME_AS => "TK_SAME_AS"
  | TK_AS => "TK_AS"
  | TK_NONE => "TK_NONE"
  | TK_NULL => "TK_NULL"
  | TK_DIVISIBLE_BY => "TK_DIVISIBLE_BY"
  | TK_CONSTANT => "TK_CONSTANT"
  | TK_EMPTY => "TK_EMPTY"
  | TK_ITERABLE => "TK_ITERABLE"
  | TK_MAX => "TK_MAX"
  | TK_MIN => "TK_MIN"
  | TK_RANGE => "TK_RANGE"
  | TK_CYCLE => "TK_CYCLE"
  | TK_RANDOM => "TK_RANDOM"
  | TK_DATE => "TK_DATE"
  | TK_INCLUDE => "TK_INCLUDE"
  | TK_SOURCE => "TK_SOURCE"
  | TK_TRANS => "TK_TRANS"
  | TK_ENDTRANS => "TK_ENDTRANS"
  | TK_SW_EXTENDS => "TK_SW_EXTENDS"
  | TK_SW_SILENT_FEATURE_CALL => "TK_SW_SILENT_FEATURE_CALL"
  | TK_ENDSW_SILENT_FEATURE_CALL => "TK_ENDSW_SILENT_FEATURE_CALL"
  | TK_SW_INCLUDE => "TK_SW_INCLUDE"
  | TK_RETURN => "TK_RETURN"
  | TK_SW_ICON => "TK_SW_ICON"
  | TK_SW_THUMBNAILS => "TK_SW_THUMBNAILS"
  | TK_STYLE => "TK_STYLE"
  | TK_SW_EMBED => "TK_SW_EMBED"
  | TK_SW_END_EMBED => "TK_SW_END_EMBED"
  | TK_SW_USE => "TK_SW_USE"
  | TK_SW_IMPORT => "TK_SW_IMPORT"
  | TK_SW_FROM => "TK_SW_FROM"
  | TK_LUDTWIG_IGNORE_FILE => "TK_LUDTWIG_IGNORE_FILE"
  | TK_LUDTWIG_IGNORE => "TK_LUDTWIG_IGNORE"
  | TK_UNKNOWN => "TK_UNKNOWN"
  | BODY => "BODY"
  | TWIG_VAR => "TWIG_VAR"
  | TWIG_EXPRESSION => "TWIG_EXPRESSION"
  | TWIG_BINARY_EXPRESSION => "TWIG_BINARY_EXPRESSION"
  | TWIG_UNARY_EXPRESSION => "TWIG_UNARY_EXPRESSION"
  | TWIG_PARENTHESES_EXPRESSION => "TWIG_PARENTHESES_EXPRESSION"
  | TWIG_CONDITIONAL_EXPRESSION => "TWIG_CONDITIONAL_EXPRESSION"
  | TWIG_OPERAND => "TWIG_OPERAND"
  | TWIG_ACCESSOR => "TWIG_ACCESSOR"
  | TWIG_FILTER => "TWIG_FILTER"
  | TWIG_INDEX_LOOKUP => "TWIG_INDEX_LOOKUP"
  | TWIG_INDEX => "TWIG_INDEX"
  | TWIG_INDEX_RANGE => "TWIG_INDEX_RANGE"
  | TWIG_FUNCTION_CALL => "TWIG_FUNCTION_CALL"
  | TWIG_ARROW_FUNCTION => "TWIG_ARROW_FUNCTION"
  | TWIG_ARGUMENTS => "TWIG_ARGUMENTS"
  | TWIG_NAMED_ARGUMENT => "TWIG_NAMED_ARGUMENT"
  | TWIG_LITERAL_STRING => "TWIG_LITERAL_STRING"
  | TWIG_LITERAL_STRING_INNER => "TWIG_LITERAL_STRING_INNER"
  | TWIG_LITERAL_STRING_INTERPOLATION => "TWIG_LITERAL_STRING_INTERPOLATION"
  | TWIG_LITERAL_NUMBER => "TWIG_LITERAL_NUMBER"
  | TWIG_LITERAL_ARRAY => "TWIG_LITERAL_ARRAY"
  | TWIG_LITERAL_ARRAY_INNER => "TWIG_LITERAL_ARRAY_INNER"
  | TWIG_LITERAL_NULL => "TWIG_LITERAL_NULL"
  | TWIG_LITERAL_BOOLEAN => "TWIG_LITERAL_BOOLEAN"
  | TWIG_LITERAL_HASH => "TWIG_LITERAL_HASH"
  | TWIG_LITERAL_HASH_ITEMS => "TWIG_LITERAL_HASH_ITEMS"
  | TWIG_LITERAL_HASH_PAIR => "TWIG_LITERAL_HASH_PAIR"
  | TWIG_LITERAL_HASH_KEY => "TWIG_LITERAL_HASH_KEY"
  | TWIG_LITERAL_HASH_VALUE => "TWIG_LITERAL_HASH_VALUE"
  | TWIG_LITERAL_NAME => "TWIG_LITERAL_NAME"
  | TWIG_COMMENT => "TWIG_COMMENT"
  | TWIG_BLOCK => "TWIG_BLOCK"
  | TWIG_STARTING_BLOCK => "TWIG_STARTING_BLOCK"
  | TWIG_ENDING_BLOCK => "TWIG_ENDING_BLOCK"
  | TWIG_IF => "TWIG_IF"
  | TWIG_IF_BLOCK => "TWIG_IF_BLOCK"
  | TWIG_ELSE_IF_BLOCK => "TWIG_ELSE_IF_BLOCK"
  | TWIG_ELSE_BLOCK => "TWIG_ELSE_BLOCK"
  | TWIG_ENDIF_BLOCK => "TWIG_ENDIF_BLOCK"
  | TWIG_SET => "TWIG_SET"
  | TWIG_SET_BLOCK => "TWIG_SET_BLOCK"
  | TWIG_ENDSET_BLOCK => "TWIG_ENDSET_BLOCK"
  | TWIG_ASSIGNMENT => "TWIG_ASSIGNMENT"
  | TWIG_FOR => "TWIG_FOR"
  | TWIG_FOR_BLOCK => "TWIG_FOR_BLOCK"
  | TWIG_FOR_ELSE_BLOCK => "TWIG_FOR_ELSE_BLOCK"
  | TWIG_ENDFOR_BLOCK => "TWIG_ENDFOR_BLOCK"
  | TWIG_EXTENDS => "TWIG_EXTENDS"
  | TWIG_INCLUDE => "TWIG_INCLUDE"
  | TWIG_INCLUDE_WITH => "TWIG_INCLUDE_WITH"
  | TWIG_USE => "TWIG_USE"
  | TWIG_OVERRIDE => "TWIG_OVERRIDE"
  | TWIG_APPLY => "TWIG_APPLY"
  | TWIG_APPLY_STARTING_BLOCK => "TWIG_APPLY_STARTING_BLOCK"
  | TWIG_APPLY_ENDING_BLOCK => "TWIG_APPLY_ENDING_BLOCK"
  | TWIG_AUTOESCAPE => "TWIG_AUTOESCAPE"
  | TWIG_AUTOESCAPE_STARTING_BLOCK => "TWIG_AUTOESCAPE_STARTING_BLOCK"
  | TWIG_AUTOESCAPE_ENDING_BLOCK => "TWIG_AUTOESCAPE_ENDING_BLOCK"
  | TWIG_DEPRECATED => "TWIG_DEPRECATED"
  | TWIG_DO => "TWIG_DO"
  | TWIG_EMBED => "TWIG_EMBED"
  | TWIG_EMBED_STARTING_BLOCK => "TWIG_EMBED_STARTING_BLOCK"
  | TWIG_EMBED_ENDING_BLOCK => "TWIG_EMBED_ENDING_BLOCK"
  | TWIG_FLUSH => "TWIG_FLUSH"
  | TWIG_FROM => "TWIG_FROM"
  | TWIG_IMPORT => "TWIG_IMPORT"
  | TWIG_SANDBOX => "TWIG_SANDBOX"
  | TWIG_SANDBOX_STARTING_BLOCK => "TWIG_SANDBOX_STARTING_BLOCK"
  | TWIG_SANDBOX_ENDING_BLOCK => "TWIG_SANDBOX_ENDING_BLOCK"
  | TWIG_VERBATIM => "TWIG_VERBATIM"
  | TWIG_VERBATIM_STARTING_BLOCK => "TWIG_VERBATIM_STARTING_BLOCK"
  | TWIG_VERBATIM_ENDING_BLOCK => "TWIG_VERBATIM_ENDING_BLOCK"
  | TWIG_MACRO => "TWIG_MACRO"
  | TWIG_MACRO_STARTING_BLOCK => "TWIG_MACRO_STARTING_BLOCK"
  | TWIG_MACRO_ENDING_BLOCK => "TWIG_MACRO_ENDING_BLOCK"
  | TWIG_WITH => "TWIG_WITH"
  | TWIG_WITH_STARTING_BLOCK => "TWIG_WITH_STARTING_BLOCK"
  | TWIG_WITH_ENDING_BLOCK => "TWIG_WITH_ENDING_BLOCK"
  | TWIG_CACHE => "TWIG_CACHE"
  | TWIG_CACHE_TTL => "TWIG_CACHE_TTL"
  | TWIG_CACHE_TAGS => "TWIG_CACHE_TAGS"
  | TWIG_CACHE_STARTING_BLOCK => "TWIG_CACHE_STARTING_BLOCK"
  | TWIG_CACHE_ENDING_BLOCK => "TWIG_CACHE_ENDING_BLOCK"
  | TWIG_PROPS => "TWIG_PROPS"
  | TWIG_PROP_DECLARATION => "TWIG_PROP_DECLARATION"
  | TWIG_COMPONENT => "TWIG_COMPONENT"
  | TWIG_COMPONENT_STARTING_BLOCK => "TWIG_COMPONENT_STARTING_BLOCK"
  | TWIG_COMPONENT_ENDING_BLOCK => "TWIG_COMPONENT_ENDING_BLOCK"
  | TWIG_TRANS => "TWIG_TRANS"
  | TWIG_TRANS_STARTING_BLOCK => "TWIG_TRANS_STARTING_BLOCK"
  | TWIG_TRANS_ENDING_BLOCK => "TWIG_TRANS_ENDING_BLOCK"
  | SHOPWARE_TWIG_SW_EXTENDS => "SHOPWARE_TWIG_SW_EXTENDS"
  | SHOPWARE_TWIG_SW_INCLUDE => "SHOPWARE_TWIG_SW_INCLUDE"
  | SHOPWARE_SILENT_FEATURE_CALL => "SHOPWARE_SILENT_FEATURE_CALL"
  | SHOPWARE_SILENT_FEATURE_CALL_STARTING_BLOCK => "SHOPWARE_SILENT_FEATURE_CALL_STARTING_BLOCK"
  | SHOPWARE_SILENT_FEATURE_CALL_ENDING_BLOCK => "SHOPWARE_SILENT_FEATURE_CALL_ENDING_BLOCK"
  | SHOPWARE_RETURN => "SHOPWARE_RETURN"
  | SHOPWARE_ICON => "SHOPWARE_ICON"
  | SHOPWARE_ICON_STYLE => "SHOPWARE_ICON_STYLE"
  | SHOPWARE_THUMBNAILS => "SHOPWARE_THUMBNAILS"
  | SHOPWARE_THUMBNAILS_WITH => "SHOPWARE_THUMBNAILS_WITH"
  | HTML_DOCTYPE => "HTML_DOCTYPE"
  | HTML_ATTRIBUTE_LIST => "HTML_ATTRIBUTE_LIST"
  | HTML_ATTRIBUTE => "HTML_ATTRIBUTE"
  | HTML_STRING => "HTML_STRING"
  | HTML_STRING_INNER => "HTML_STRING_INNER"
  | HTML_TEXT => "HTML_TEXT"
  | HTML_RAW_TEXT => "HTML_RAW_TEXT"
  | HTML_COMMENT => "HTML_COMMENT"
  | HTML_TAG => "HTML_TAG"
  | HTML_STARTING_TAG => "HTML_STARTING_TAG"
  | HTML_ENDING_TAG => "HTML_ENDING_TAG"
  | LUDTWIG_DIRECTIVE_FILE_IGNORE => "LUDTWIG_DIRECTIVE_FILE_IGNORE"
  | LUDTWIG_DIRECTIVE_IGNORE => "LUDTWIG_DIRECTIVE_IGNORE"
  | LUDTWIG_DIRECTIVE_RULE_LIST => "LUDTWIG_DIRECTIVE_RULE_LIST"
  | ERROR => "ERROR"
  | ROOT => "ROOT"
  end%string.

(** [Debug] of TextRange (text-size): start..end *)
Definition range_debug (a b : nat) : text := nat_text a ++ txt ".." ++ nat_text b.

Section Escape.
  (** [char::is_printable] and not [Grapheme_Extend] (std, tables of Unicode): any set of
      characters; the others are shown by number. *)
  Context (printable : N -> bool).

  (** [char::escape_debug] as used by [Debug] of str (std) *)
  Definition escape (c : N) : text :=
    if (c =? 0)%N then txt "\0"
    else if (c =? 9)%N then txt "\t"
    else if (c =? 13)%N then txt "\r"
    else if (c =? 10)%N then txt "\n"
    else if (c =? 34)%N then [92; 34]%N
    else if (c =? 92)%N then txt "\\"
    else if printable c then [c]
    else txt "\u{" ++ txt (NilZero.string_of_uint (N.to_hex_uint c)) ++ txt "}".
  (** [Debug] of str (std) *)
  Definition text_debug (s : text) : text := [34%N] ++ flat_map escape s ++ [34%N].

  (** The first of the given offsets that is a char boundary ([str::is_char_boundary] and
      slicing, in the loop of rowan's [Debug] of SyntaxToken). *)
  Fixpoint cut_at (offsets : list nat) (s : text) : option text :=
    match offsets with
    | [] => None
    | i :: r => match bsplit i s with Some (a, _) => Some a | None => cut_at r s end
    end.
  (** rowan (api.rs, cursor.rs) [Debug] of SyntaxToken: the text in full if it is shorter than
      25 bytes, otherwise its first 21 to 24 bytes; [None] is the unreachable!() behind the loop *)
  Definition token_shown (s : text) : option text :=
    if blen s <? 25 then Some (text_debug s)
    else option_map (fun a => text_debug (a ++ txt " ...")) (cut_at [21; 22; 23; 24] s).

  (** rowan [Debug] of SyntaxNode and SyntaxToken without [#], with the indentation and the
      line break of the alternate form *)
  Definition node_line (depth : nat) (k : kind) (a b : nat) : text :=
    repeat 32%N (2 * depth) ++ txt (kind_debug k) ++ txt "@" ++ range_debug a b ++ [10%N].
  (** the same for a token *)
  Definition token_line (depth : nat) (k : kind) (a b : nat) (shown : text) : text :=
    repeat 32%N (2 * depth) ++ txt (kind_debug k) ++ txt "@" ++ range_debug a b ++ txt " " ++ shown ++ [10%N].

  (** rowan [Debug] of SyntaxNode with [#]: one line per element in preorder, two spaces per
      level.  Simplification: a recursive function instead of a loop over walk events with a
      counter. *)
  Fixpoint tree_debug (depth offset : nat) (t : tree) : option text :=
    match t with
    | Leaf k s => option_map (token_line depth k offset (offset + blen s)) (token_shown s)
    | Node k cs =>
      option_map (app (node_line depth k offset (offset + tree_len t)))
        ((fix go (offset : nat) (l : list tree) : option text :=
            match l with
            | [] => Some []
            | c :: r =>
              match tree_debug (S depth) offset c, go (offset + tree_len c) r with
              | Some a, Some b => Some (a ++ b)
              | _, _ => None
              end
            end) offset cs)
    end.

  (** untyped.rs:979-983 debug_tree: without the last line break *)
  Definition debug_tree (t : tree) : option text := option_map (@removelast N) (tree_debug 0 0 t).

  (** parser.rs:102-113 debug_parse: the tree and one line per syntax error *)
  Definition debug_parse (t : tree) (errs : list perror) : option text :=
    fold_left (fun acc e => match acc, error_display e with Some s, Some m => Some (s ++ [10%N] ++ m) | _, _ => None end) errs (debug_tree t).
End Escape.
