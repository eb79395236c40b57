(** Syntax kinds. Generated from /repo/crates/ludtwig-parser/src/syntax/untyped.rs
    (enum SyntaxKind, lines 38-552; Display, lines 756-928; is_trivia, lines 930-936). *)
From Coq Require Import List NArith String Bool.
Import ListNotations.
Local Open Scope string_scope.

(** untyped.rs:38-552  enum SyntaxKind, same variants in the same order. *)
Inductive kind : Set :=
| TK_WHITESPACE
| TK_LINE_BREAK
| TK_WORD
| TK_TWIG_COMPONENT_NAME
| TK_NUMBER
| TK_HTML_ESCAPE_CHARACTER
| TK_DOT
| TK_DOUBLE_DOT
| TK_TRIPLE_DOT
| TK_COMMA
| TK_COLON
| TK_SEMICOLON
| TK_EXCLAMATION_MARK
| TK_EXCLAMATION_MARK_EQUALS
| TK_EXCLAMATION_MARK_DOUBLE_EQUALS
| TK_QUESTION_MARK
| TK_DOUBLE_QUESTION_MARK
| TK_PERCENT
| TK_TILDE
| TK_SINGLE_PIPE
| TK_DOUBLE_PIPE
| TK_AMPERSAND
| TK_DOUBLE_AMPERSAND
| TK_FORWARD_SLASH
| TK_DOUBLE_FORWARD_SLASH
| TK_BACKWARD_SLASH
| TK_OPEN_PARENTHESIS
| TK_CLOSE_PARENTHESIS
| TK_OPEN_CURLY
| TK_CLOSE_CURLY
| TK_OPEN_SQUARE
| TK_CLOSE_SQUARE
| TK_LESS_THAN
| TK_LESS_THAN_EQUAL
| TK_LESS_THAN_EQUAL_GREATER_THAN
| TK_LESS_THAN_SLASH
| TK_LESS_THAN_EXCLAMATION_MARK
| TK_DOCTYPE
| TK_GREATER_THAN
| TK_GREATER_THAN_EQUAL
| TK_EQUAL_GREATER_THAN
| TK_SLASH_GREATER_THAN
| TK_LESS_THAN_EXCLAMATION_MARK_MINUS_MINUS
| TK_MINUS_MINUS_GREATER_THAN
| TK_EQUAL
| TK_DOUBLE_EQUAL
| TK_TRIPLE_EQUAL
| TK_PLUS
| TK_MINUS
| TK_STAR
| TK_DOUBLE_STAR
| TK_DOUBLE_QUOTES
| TK_SINGLE_QUOTES
| TK_GRAVE_ACCENT_QUOTES
| TK_CURLY_PERCENT
| TK_CURLY_PERCENT_MINUS
| TK_CURLY_PERCENT_TILDE
| TK_PERCENT_CURLY
| TK_MINUS_PERCENT_CURLY
| TK_TILDE_PERCENT_CURLY
| TK_OPEN_CURLY_CURLY
| TK_OPEN_CURLY_CURLY_MINUS
| TK_OPEN_CURLY_CURLY_TILDE
| TK_CLOSE_CURLY_CURLY
| TK_MINUS_CLOSE_CURLY_CURLY
| TK_TILDE_CLOSE_CURLY_CURLY
| TK_OPEN_CURLY_HASHTAG
| TK_OPEN_CURLY_HASHTAG_MINUS
| TK_OPEN_CURLY_HASHTAG_TILDE
| TK_HASHTAG_CLOSE_CURLY
| TK_MINUS_HASHTAG_CLOSE_CURLY
| TK_TILDE_HASHTAG_CLOSE_CURLY
| TK_HASHTAG
| TK_TRUE
| TK_FALSE
| TK_BLOCK
| TK_ENDBLOCK
| TK_IF
| TK_ELSE_IF
| TK_ELSE
| TK_ENDIF
| TK_APPLY
| TK_ENDAPPLY
| TK_AUTOESCAPE
| TK_ENDAUTOESCAPE
| TK_CACHE
| TK_ENDCACHE
| TK_DEPRECATED
| TK_DO
| TK_EMBED
| TK_ENDEMBED
| TK_EXTENDS
| TK_FLUSH
| TK_FOR
| TK_ENDFOR
| TK_FROM
| TK_IMPORT
| TK_MACRO
| TK_ENDMACRO
| TK_SANDBOX
| TK_ENDSANDBOX
| TK_SET
| TK_ENDSET
| TK_USE
| TK_VERBATIM
| TK_ENDVERBATIM
| TK_ONLY
| TK_IGNORE_MISSING
| TK_WITH
| TK_ENDWITH
| TK_TTL
| TK_TAGS
| TK_PROPS
| TK_COMPONENT
| TK_ENDCOMPONENT
| TK_NOT
| TK_NOT_IN
| TK_OR
| TK_AND
| TK_BINARY_OR
| TK_BINARY_XOR
| TK_BINARY_AND
| TK_IN
| TK_MATCHES
| TK_STARTS_WITH
| TK_ENDS_WITH
| TK_IS
| TK_IS_NOT
| TK_EVEN
| TK_ODD
| TK_DEFINED
| TK_SAME_AS
| TK_AS
| TK_NONE
| TK_NULL
| TK_DIVISIBLE_BY
| TK_CONSTANT
| TK_EMPTY
| TK_ITERABLE
| TK_MAX
| TK_MIN
| TK_RANGE
| TK_CYCLE
| TK_RANDOM
| TK_DATE
| TK_INCLUDE
| TK_SOURCE
| TK_TRANS
| TK_ENDTRANS
| TK_SW_EXTENDS
| TK_SW_SILENT_FEATURE_CALL
| TK_ENDSW_SILENT_FEATURE_CALL
| TK_SW_INCLUDE
| TK_RETURN
| TK_SW_ICON
| TK_SW_THUMBNAILS
| TK_STYLE
| TK_SW_EMBED
| TK_SW_END_EMBED
| TK_SW_USE
| TK_SW_IMPORT
| TK_SW_FROM
| TK_LUDTWIG_IGNORE_FILE
| TK_LUDTWIG_IGNORE
| TK_UNKNOWN
| BODY
| TWIG_VAR
| TWIG_EXPRESSION
| TWIG_BINARY_EXPRESSION
| TWIG_UNARY_EXPRESSION
| TWIG_PARENTHESES_EXPRESSION
| TWIG_CONDITIONAL_EXPRESSION
| TWIG_OPERAND
| TWIG_ACCESSOR
| TWIG_FILTER
| TWIG_INDEX_LOOKUP
| TWIG_INDEX
| TWIG_INDEX_RANGE
| TWIG_FUNCTION_CALL
| TWIG_ARROW_FUNCTION
| TWIG_ARGUMENTS
| TWIG_NAMED_ARGUMENT
| TWIG_LITERAL_STRING
| TWIG_LITERAL_STRING_INNER
| TWIG_LITERAL_STRING_INTERPOLATION
| TWIG_LITERAL_NUMBER
| TWIG_LITERAL_ARRAY
| TWIG_LITERAL_ARRAY_INNER
| TWIG_LITERAL_NULL
| TWIG_LITERAL_BOOLEAN
| TWIG_LITERAL_HASH
| TWIG_LITERAL_HASH_ITEMS
| TWIG_LITERAL_HASH_PAIR
| TWIG_LITERAL_HASH_KEY
| TWIG_LITERAL_HASH_VALUE
| TWIG_LITERAL_NAME
| TWIG_COMMENT
| TWIG_BLOCK
| TWIG_STARTING_BLOCK
| TWIG_ENDING_BLOCK
| TWIG_IF
| TWIG_IF_BLOCK
| TWIG_ELSE_IF_BLOCK
| TWIG_ELSE_BLOCK
| TWIG_ENDIF_BLOCK
| TWIG_SET
| TWIG_SET_BLOCK
| TWIG_ENDSET_BLOCK
| TWIG_ASSIGNMENT
| TWIG_FOR
| TWIG_FOR_BLOCK
| TWIG_FOR_ELSE_BLOCK
| TWIG_ENDFOR_BLOCK
| TWIG_EXTENDS
| TWIG_INCLUDE
| TWIG_INCLUDE_WITH
| TWIG_USE
| TWIG_OVERRIDE
| TWIG_APPLY
| TWIG_APPLY_STARTING_BLOCK
| TWIG_APPLY_ENDING_BLOCK
| TWIG_AUTOESCAPE
| TWIG_AUTOESCAPE_STARTING_BLOCK
| TWIG_AUTOESCAPE_ENDING_BLOCK
| TWIG_DEPRECATED
| TWIG_DO
| TWIG_EMBED
| TWIG_EMBED_STARTING_BLOCK
| TWIG_EMBED_ENDING_BLOCK
| TWIG_FLUSH
| TWIG_FROM
| TWIG_IMPORT
| TWIG_SANDBOX
| TWIG_SANDBOX_STARTING_BLOCK
| TWIG_SANDBOX_ENDING_BLOCK
| TWIG_VERBATIM
| TWIG_VERBATIM_STARTING_BLOCK
| TWIG_VERBATIM_ENDING_BLOCK
| TWIG_MACRO
| TWIG_MACRO_STARTING_BLOCK
| TWIG_MACRO_ENDING_BLOCK
| TWIG_WITH
| TWIG_WITH_STARTING_BLOCK
| TWIG_WITH_ENDING_BLOCK
| TWIG_CACHE
| TWIG_CACHE_TTL
| TWIG_CACHE_TAGS
| TWIG_CACHE_STARTING_BLOCK
| TWIG_CACHE_ENDING_BLOCK
| TWIG_PROPS
| TWIG_PROP_DECLARATION
| TWIG_COMPONENT
| TWIG_COMPONENT_STARTING_BLOCK
| TWIG_COMPONENT_ENDING_BLOCK
| TWIG_TRANS
| TWIG_TRANS_STARTING_BLOCK
| TWIG_TRANS_ENDING_BLOCK
| SHOPWARE_TWIG_SW_EXTENDS
| SHOPWARE_TWIG_SW_INCLUDE
| SHOPWARE_SILENT_FEATURE_CALL
| SHOPWARE_SILENT_FEATURE_CALL_STARTING_BLOCK
| SHOPWARE_SILENT_FEATURE_CALL_ENDING_BLOCK
| SHOPWARE_RETURN
| SHOPWARE_ICON
| SHOPWARE_ICON_STYLE
| SHOPWARE_THUMBNAILS
| SHOPWARE_THUMBNAILS_WITH
| HTML_DOCTYPE
| HTML_ATTRIBUTE_LIST
| HTML_ATTRIBUTE
| HTML_STRING
| HTML_STRING_INNER
| HTML_TEXT
| HTML_RAW_TEXT
| HTML_COMMENT
| HTML_TAG
| HTML_STARTING_TAG
| HTML_ENDING_TAG
| LUDTWIG_DIRECTIVE_FILE_IGNORE
| LUDTWIG_DIRECTIVE_IGNORE
| LUDTWIG_DIRECTIVE_RULE_LIST
| ERROR
| ROOT.

(** untyped.rs:36-37  #[repr(u16)]: the discriminant of a variant. *)
Definition kind_idx (k : kind) : N :=
  match k with
  | TK_WHITESPACE => 0
  | TK_LINE_BREAK => 1
  | TK_WORD => 2
  | TK_TWIG_COMPONENT_NAME => 3
  | TK_NUMBER => 4
  | TK_HTML_ESCAPE_CHARACTER => 5
  | TK_DOT => 6
  | TK_DOUBLE_DOT => 7
  | TK_TRIPLE_DOT => 8
  | TK_COMMA => 9
  | TK_COLON => 10
  | TK_SEMICOLON => 11
  | TK_EXCLAMATION_MARK => 12
  | TK_EXCLAMATION_MARK_EQUALS => 13
  | TK_EXCLAMATION_MARK_DOUBLE_EQUALS => 14
  | TK_QUESTION_MARK => 15
  | TK_DOUBLE_QUESTION_MARK => 16
  | TK_PERCENT => 17
  | TK_TILDE => 18
  | TK_SINGLE_PIPE => 19
  | TK_DOUBLE_PIPE => 20
  | TK_AMPERSAND => 21
  | TK_DOUBLE_AMPERSAND => 22
  | TK_FORWARD_SLASH => 23
  | TK_DOUBLE_FORWARD_SLASH => 24
  | TK_BACKWARD_SLASH => 25
  | TK_OPEN_PARENTHESIS => 26
  | TK_CLOSE_PARENTHESIS => 27
  | TK_OPEN_CURLY => 28
  | TK_CLOSE_CURLY => 29
  | TK_OPEN_SQUARE => 30
  | TK_CLOSE_SQUARE => 31
  | TK_LESS_THAN => 32
  | TK_LESS_THAN_EQUAL => 33
  | TK_LESS_THAN_EQUAL_GREATER_THAN => 34
  | TK_LESS_THAN_SLASH => 35
  | TK_LESS_THAN_EXCLAMATION_MARK => 36
  | TK_DOCTYPE => 37
  | TK_GREATER_THAN => 38
  | TK_GREATER_THAN_EQUAL => 39
  | TK_EQUAL_GREATER_THAN => 40
  | TK_SLASH_GREATER_THAN => 41
  | TK_LESS_THAN_EXCLAMATION_MARK_MINUS_MINUS => 42
  | TK_MINUS_MINUS_GREATER_THAN => 43
  | TK_EQUAL => 44
  | TK_DOUBLE_EQUAL => 45
  | TK_TRIPLE_EQUAL => 46
  | TK_PLUS => 47
  | TK_MINUS => 48
  | TK_STAR => 49
  | TK_DOUBLE_STAR => 50
  | TK_DOUBLE_QUOTES => 51
  | TK_SINGLE_QUOTES => 52
  | TK_GRAVE_ACCENT_QUOTES => 53
  | TK_CURLY_PERCENT => 54
  | TK_CURLY_PERCENT_MINUS => 55
  | TK_CURLY_PERCENT_TILDE => 56
  | TK_PERCENT_CURLY => 57
  | TK_MINUS_PERCENT_CURLY => 58
  | TK_TILDE_PERCENT_CURLY => 59
  | TK_OPEN_CURLY_CURLY => 60
  | TK_OPEN_CURLY_CURLY_MINUS => 61
  | TK_OPEN_CURLY_CURLY_TILDE => 62
  | TK_CLOSE_CURLY_CURLY => 63
  | TK_MINUS_CLOSE_CURLY_CURLY => 64
  | TK_TILDE_CLOSE_CURLY_CURLY => 65
  | TK_OPEN_CURLY_HASHTAG => 66
  | TK_OPEN_CURLY_HASHTAG_MINUS => 67
  | TK_OPEN_CURLY_HASHTAG_TILDE => 68
  | TK_HASHTAG_CLOSE_CURLY => 69
  | TK_MINUS_HASHTAG_CLOSE_CURLY => 70
  | TK_TILDE_HASHTAG_CLOSE_CURLY => 71
  | TK_HASHTAG => 72
  | TK_TRUE => 73
  | TK_FALSE => 74
  | TK_BLOCK => 75
  | TK_ENDBLOCK => 76
  | TK_IF => 77
  | TK_ELSE_IF => 78
  | TK_ELSE => 79
  | TK_ENDIF => 80
  | TK_APPLY => 81
  | TK_ENDAPPLY => 82
  | TK_AUTOESCAPE => 83
  | TK_ENDAUTOESCAPE => 84
  | TK_CACHE => 85
  | TK_ENDCACHE => 86
  | TK_DEPRECATED => 87
  | TK_DO => 88
  | TK_EMBED => 89
  | TK_ENDEMBED => 90
  | TK_EXTENDS => 91
  | TK_FLUSH => 92
  | TK_FOR => 93
  | TK_ENDFOR => 94
  | TK_FROM => 95
  | TK_IMPORT => 96
  | TK_MACRO => 97
  | TK_ENDMACRO => 98
  | TK_SANDBOX => 99
  | TK_ENDSANDBOX => 100
  | TK_SET => 101
  | TK_ENDSET => 102
  | TK_USE => 103
  | TK_VERBATIM => 104
  | TK_ENDVERBATIM => 105
  | TK_ONLY => 106
  | TK_IGNORE_MISSING => 107
  | TK_WITH => 108
  | TK_ENDWITH => 109
  | TK_TTL => 110
  | TK_TAGS => 111
  | TK_PROPS => 112
  | TK_COMPONENT => 113
  | TK_ENDCOMPONENT => 114
  | TK_NOT => 115
  | TK_NOT_IN => 116
  | TK_OR => 117
  | TK_AND => 118
  | TK_BINARY_OR => 119
  | TK_BINARY_XOR => 120
  | TK_BINARY_AND => 121
  | TK_IN => 122
  | TK_MATCHES => 123
  | TK_STARTS_WITH => 124
  | TK_ENDS_WITH => 125
  | TK_IS => 126
  | TK_IS_NOT => 127
  | TK_EVEN => 128
  | TK_ODD => 129
  | TK_DEFINED => 130
  | TK_SAME_AS => 131
  | TK_AS => 132
  | TK_NONE => 133
  | TK_NULL => 134
  | TK_DIVISIBLE_BY => 135
  | TK_CONSTANT => 136
  | TK_EMPTY => 137
  | TK_ITERABLE => 138
  | TK_MAX => 139
  | TK_MIN => 140
  | TK_RANGE => 141
  | TK_CYCLE => 142
  | TK_RANDOM => 143
  | TK_DATE => 144
  | TK_INCLUDE => 145
  | TK_SOURCE => 146
  | TK_TRANS => 147
  | TK_ENDTRANS => 148
  | TK_SW_EXTENDS => 149
  | TK_SW_SILENT_FEATURE_CALL => 150
  | TK_ENDSW_SILENT_FEATURE_CALL => 151
  | TK_SW_INCLUDE => 152
  | TK_RETURN => 153
  | TK_SW_ICON => 154
  | TK_SW_THUMBNAILS => 155
  | TK_STYLE => 156
  | TK_SW_EMBED => 157
  | TK_SW_END_EMBED => 158
  | TK_SW_USE => 159
  | TK_SW_IMPORT => 160
  | TK_SW_FROM => 161
  | TK_LUDTWIG_IGNORE_FILE => 162
  | TK_LUDTWIG_IGNORE => 163
  | TK_UNKNOWN => 164
  | BODY => 165
  | TWIG_VAR => 166
  | TWIG_EXPRESSION => 167
  | TWIG_BINARY_EXPRESSION => 168
  | TWIG_UNARY_EXPRESSION => 169
  | TWIG_PARENTHESES_EXPRESSION => 170
  | TWIG_CONDITIONAL_EXPRESSION => 171
  | TWIG_OPERAND => 172
  | TWIG_ACCESSOR => 173
  | TWIG_FILTER => 174
  | TWIG_INDEX_LOOKUP => 175
  | TWIG_INDEX => 176
  | TWIG_INDEX_RANGE => 177
  | TWIG_FUNCTION_CALL => 178
  | TWIG_ARROW_FUNCTION => 179
  | TWIG_ARGUMENTS => 180
  | TWIG_NAMED_ARGUMENT => 181
  | TWIG_LITERAL_STRING => 182
  | TWIG_LITERAL_STRING_INNER => 183
  | TWIG_LITERAL_STRING_INTERPOLATION => 184
  | TWIG_LITERAL_NUMBER => 185
  | TWIG_LITERAL_ARRAY => 186
  | TWIG_LITERAL_ARRAY_INNER => 187
  | TWIG_LITERAL_NULL => 188
  | TWIG_LITERAL_BOOLEAN => 189
  | TWIG_LITERAL_HASH => 190
  | TWIG_LITERAL_HASH_ITEMS => 191
  | TWIG_LITERAL_HASH_PAIR => 192
  | TWIG_LITERAL_HASH_KEY => 193
  | TWIG_LITERAL_HASH_VALUE => 194
  | TWIG_LITERAL_NAME => 195
  | TWIG_COMMENT => 196
  | TWIG_BLOCK => 197
  | TWIG_STARTING_BLOCK => 198
  | TWIG_ENDING_BLOCK => 199
  | TWIG_IF => 200
  | TWIG_IF_BLOCK => 201
  | TWIG_ELSE_IF_BLOCK => 202
  | TWIG_ELSE_BLOCK => 203
  | TWIG_ENDIF_BLOCK => 204
  | TWIG_SET => 205
  | TWIG_SET_BLOCK => 206
  | TWIG_ENDSET_BLOCK => 207
  | TWIG_ASSIGNMENT => 208
  | TWIG_FOR => 209
  | TWIG_FOR_BLOCK => 210
  | TWIG_FOR_ELSE_BLOCK => 211
  | TWIG_ENDFOR_BLOCK => 212
  | TWIG_EXTENDS => 213
  | TWIG_INCLUDE => 214
  | TWIG_INCLUDE_WITH => 215
  | TWIG_USE => 216
  | TWIG_OVERRIDE => 217
  | TWIG_APPLY => 218
  | TWIG_APPLY_STARTING_BLOCK => 219
  | TWIG_APPLY_ENDING_BLOCK => 220
  | TWIG_AUTOESCAPE => 221
  | TWIG_AUTOESCAPE_STARTING_BLOCK => 222
  | TWIG_AUTOESCAPE_ENDING_BLOCK => 223
  | TWIG_DEPRECATED => 224
  | TWIG_DO => 225
  | TWIG_EMBED => 226
  | TWIG_EMBED_STARTING_BLOCK => 227
  | TWIG_EMBED_ENDING_BLOCK => 228
  | TWIG_FLUSH => 229
  | TWIG_FROM => 230
  | TWIG_IMPORT => 231
  | TWIG_SANDBOX => 232
  | TWIG_SANDBOX_STARTING_BLOCK => 233
  | TWIG_SANDBOX_ENDING_BLOCK => 234
  | TWIG_VERBATIM => 235
  | TWIG_VERBATIM_STARTING_BLOCK => 236
  | TWIG_VERBATIM_ENDING_BLOCK => 237
  | TWIG_MACRO => 238
  | TWIG_MACRO_STARTING_BLOCK => 239
  | TWIG_MACRO_ENDING_BLOCK => 240
  | TWIG_WITH => 241
  | TWIG_WITH_STARTING_BLOCK => 242
  | TWIG_WITH_ENDING_BLOCK => 243
  | TWIG_CACHE => 244
  | TWIG_CACHE_TTL => 245
  | TWIG_CACHE_TAGS => 246
  | TWIG_CACHE_STARTING_BLOCK => 247
  | TWIG_CACHE_ENDING_BLOCK => 248
  | TWIG_PROPS => 249
  | TWIG_PROP_DECLARATION => 250
  | TWIG_COMPONENT => 251
  | TWIG_COMPONENT_STARTING_BLOCK => 252
  | TWIG_COMPONENT_ENDING_BLOCK => 253
  | TWIG_TRANS => 254
  | TWIG_TRANS_STARTING_BLOCK => 255
  | TWIG_TRANS_ENDING_BLOCK => 256
  | SHOPWARE_TWIG_SW_EXTENDS => 257
  | SHOPWARE_TWIG_SW_INCLUDE => 258
  | SHOPWARE_SILENT_FEATURE_CALL => 259
  | SHOPWARE_SILENT_FEATURE_CALL_STARTING_BLOCK => 260
  | SHOPWARE_SILENT_FEATURE_CALL_ENDING_BLOCK => 261
  | SHOPWARE_RETURN => 262
  | SHOPWARE_ICON => 263
  | SHOPWARE_ICON_STYLE => 264
  | SHOPWARE_THUMBNAILS => 265
  | SHOPWARE_THUMBNAILS_WITH => 266
  | HTML_DOCTYPE => 267
  | HTML_ATTRIBUTE_LIST => 268
  | HTML_ATTRIBUTE => 269
  | HTML_STRING => 270
  | HTML_STRING_INNER => 271
  | HTML_TEXT => 272
  | HTML_RAW_TEXT => 273
  | HTML_COMMENT => 274
  | HTML_TAG => 275
  | HTML_STARTING_TAG => 276
  | HTML_ENDING_TAG => 277
  | LUDTWIG_DIRECTIVE_FILE_IGNORE => 278
  | LUDTWIG_DIRECTIVE_IGNORE => 279
  | LUDTWIG_DIRECTIVE_RULE_LIST => 280
  | ERROR => 281
  | ROOT => 282
  end%N.

(** untyped.rs:38-552  all variants in declaration order. *)
Definition all_kinds : list kind :=
  [ TK_WHITESPACE;
    TK_LINE_BREAK;
    TK_WORD;
    TK_TWIG_COMPONENT_NAME;
    TK_NUMBER;
    TK_HTML_ESCAPE_CHARACTER;
    TK_DOT;
    TK_DOUBLE_DOT;
    TK_TRIPLE_DOT;
    TK_COMMA;
    TK_COLON;
    TK_SEMICOLON;
    TK_EXCLAMATION_MARK;
    TK_EXCLAMATION_MARK_EQUALS;
    TK_EXCLAMATION_MARK_DOUBLE_EQUALS;
    TK_QUESTION_MARK;
    TK_DOUBLE_QUESTION_MARK;
    TK_PERCENT;
    TK_TILDE;
    TK_SINGLE_PIPE;
    TK_DOUBLE_PIPE;
    TK_AMPERSAND;
    TK_DOUBLE_AMPERSAND;
    TK_FORWARD_SLASH;
    TK_DOUBLE_FORWARD_SLASH;
    TK_BACKWARD_SLASH;
    TK_OPEN_PARENTHESIS;
    TK_CLOSE_PARENTHESIS;
    TK_OPEN_CURLY;
    TK_CLOSE_CURLY;
    TK_OPEN_SQUARE;
    TK_CLOSE_SQUARE;
    TK_LESS_THAN;
    TK_LESS_THAN_EQUAL;
    TK_LESS_THAN_EQUAL_GREATER_THAN;
    TK_LESS_THAN_SLASH;
    TK_LESS_THAN_EXCLAMATION_MARK;
    TK_DOCTYPE;
    TK_GREATER_THAN;
    TK_GREATER_THAN_EQUAL;
    TK_EQUAL_GREATER_THAN;
    TK_SLASH_GREATER_THAN;
    TK_LESS_THAN_EXCLAMATION_MARK_MINUS_MINUS;
    TK_MINUS_MINUS_GREATER_THAN;
    TK_EQUAL;
    TK_DOUBLE_EQUAL;
    TK_TRIPLE_EQUAL;
    TK_PLUS;
    TK_MINUS;
    TK_STAR;
    TK_DOUBLE_STAR;
    TK_DOUBLE_QUOTES;
    TK_SINGLE_QUOTES;
    TK_GRAVE_ACCENT_QUOTES;
    TK_CURLY_PERCENT;
    TK_CURLY_PERCENT_MINUS;
    TK_CURLY_PERCENT_TILDE;
    TK_PERCENT_CURLY;
    TK_MINUS_PERCENT_CURLY;
    TK_TILDE_PERCENT_CURLY;
    TK_OPEN_CURLY_CURLY;
    TK_OPEN_CURLY_CURLY_MINUS;
    TK_OPEN_CURLY_CURLY_TILDE;
    TK_CLOSE_CURLY_CURLY;
    TK_MINUS_CLOSE_CURLY_CURLY;
    TK_TILDE_CLOSE_CURLY_CURLY;
    TK_OPEN_CURLY_HASHTAG;
    TK_OPEN_CURLY_HASHTAG_MINUS;
    TK_OPEN_CURLY_HASHTAG_TILDE;
    TK_HASHTAG_CLOSE_CURLY;
    TK_MINUS_HASHTAG_CLOSE_CURLY;
    TK_TILDE_HASHTAG_CLOSE_CURLY;
    TK_HASHTAG;
    TK_TRUE;
    TK_FALSE;
    TK_BLOCK;
    TK_ENDBLOCK;
    TK_IF;
    TK_ELSE_IF;
    TK_ELSE;
    TK_ENDIF;
    TK_APPLY;
    TK_ENDAPPLY;
    TK_AUTOESCAPE;
    TK_ENDAUTOESCAPE;
    TK_CACHE;
    TK_ENDCACHE;
    TK_DEPRECATED;
    TK_DO;
    TK_EMBED;
    TK_ENDEMBED;
    TK_EXTENDS;
    TK_FLUSH;
    TK_FOR;
    TK_ENDFOR;
    TK_FROM;
    TK_IMPORT;
    TK_MACRO;
    TK_ENDMACRO;
    TK_SANDBOX;
    TK_ENDSANDBOX;
    TK_SET;
    TK_ENDSET;
    TK_USE;
    TK_VERBATIM;
    TK_ENDVERBATIM;
    TK_ONLY;
    TK_IGNORE_MISSING;
    TK_WITH;
    TK_ENDWITH;
    TK_TTL;
    TK_TAGS;
    TK_PROPS;
    TK_COMPONENT;
    TK_ENDCOMPONENT;
    TK_NOT;
    TK_NOT_IN;
    TK_OR;
    TK_AND;
    TK_BINARY_OR;
    TK_BINARY_XOR;
    TK_BINARY_AND;
    TK_IN;
    TK_MATCHES;
    TK_STARTS_WITH;
    TK_ENDS_WITH;
    TK_IS;
    TK_IS_NOT;
    TK_EVEN;
    TK_ODD;
    TK_DEFINED;
    TK_SAME_AS;
    TK_AS;
    TK_NONE;
    TK_NULL;
    TK_DIVISIBLE_BY;
    TK_CONSTANT;
    TK_EMPTY;
    TK_ITERABLE;
    TK_MAX;
    TK_MIN;
    TK_RANGE;
    TK_CYCLE;
    TK_RANDOM;
    TK_DATE;
    TK_INCLUDE;
    TK_SOURCE;
    TK_TRANS;
    TK_ENDTRANS;
    TK_SW_EXTENDS;
    TK_SW_SILENT_FEATURE_CALL;
    TK_ENDSW_SILENT_FEATURE_CALL;
    TK_SW_INCLUDE;
    TK_RETURN;
    TK_SW_ICON;
    TK_SW_THUMBNAILS;
    TK_STYLE;
    TK_SW_EMBED;
    TK_SW_END_EMBED;
    TK_SW_USE;
    TK_SW_IMPORT;
    TK_SW_FROM;
    TK_LUDTWIG_IGNORE_FILE;
    TK_LUDTWIG_IGNORE;
    TK_UNKNOWN;
    BODY;
    TWIG_VAR;
    TWIG_EXPRESSION;
    TWIG_BINARY_EXPRESSION;
    TWIG_UNARY_EXPRESSION;
    TWIG_PARENTHESES_EXPRESSION;
    TWIG_CONDITIONAL_EXPRESSION;
    TWIG_OPERAND;
    TWIG_ACCESSOR;
    TWIG_FILTER;
    TWIG_INDEX_LOOKUP;
    TWIG_INDEX;
    TWIG_INDEX_RANGE;
    TWIG_FUNCTION_CALL;
    TWIG_ARROW_FUNCTION;
    TWIG_ARGUMENTS;
    TWIG_NAMED_ARGUMENT;
    TWIG_LITERAL_STRING;
    TWIG_LITERAL_STRING_INNER;
    TWIG_LITERAL_STRING_INTERPOLATION;
    TWIG_LITERAL_NUMBER;
    TWIG_LITERAL_ARRAY;
    TWIG_LITERAL_ARRAY_INNER;
    TWIG_LITERAL_NULL;
    TWIG_LITERAL_BOOLEAN;
    TWIG_LITERAL_HASH;
    TWIG_LITERAL_HASH_ITEMS;
    TWIG_LITERAL_HASH_PAIR;
    TWIG_LITERAL_HASH_KEY;
    TWIG_LITERAL_HASH_VALUE;
    TWIG_LITERAL_NAME;
    TWIG_COMMENT;
    TWIG_BLOCK;
    TWIG_STARTING_BLOCK;
    TWIG_ENDING_BLOCK;
    TWIG_IF;
    TWIG_IF_BLOCK;
    TWIG_ELSE_IF_BLOCK;
    TWIG_ELSE_BLOCK;
    TWIG_ENDIF_BLOCK;
    TWIG_SET;
    TWIG_SET_BLOCK;
    TWIG_ENDSET_BLOCK;
    TWIG_ASSIGNMENT;
    TWIG_FOR;
    TWIG_FOR_BLOCK;
    TWIG_FOR_ELSE_BLOCK;
    TWIG_ENDFOR_BLOCK;
    TWIG_EXTENDS;
    TWIG_INCLUDE;
    TWIG_INCLUDE_WITH;
    TWIG_USE;
    TWIG_OVERRIDE;
    TWIG_APPLY;
    TWIG_APPLY_STARTING_BLOCK;
    TWIG_APPLY_ENDING_BLOCK;
    TWIG_AUTOESCAPE;
    TWIG_AUTOESCAPE_STARTING_BLOCK;
    TWIG_AUTOESCAPE_ENDING_BLOCK;
    TWIG_DEPRECATED;
    TWIG_DO;
    TWIG_EMBED;
    TWIG_EMBED_STARTING_BLOCK;
    TWIG_EMBED_ENDING_BLOCK;
    TWIG_FLUSH;
    TWIG_FROM;
    TWIG_IMPORT;
    TWIG_SANDBOX;
    TWIG_SANDBOX_STARTING_BLOCK;
    TWIG_SANDBOX_ENDING_BLOCK;
    TWIG_VERBATIM;
    TWIG_VERBATIM_STARTING_BLOCK;
    TWIG_VERBATIM_ENDING_BLOCK;
    TWIG_MACRO;
    TWIG_MACRO_STARTING_BLOCK;
    TWIG_MACRO_ENDING_BLOCK;
    TWIG_WITH;
    TWIG_WITH_STARTING_BLOCK;
    TWIG_WITH_ENDING_BLOCK;
    TWIG_CACHE;
    TWIG_CACHE_TTL;
    TWIG_CACHE_TAGS;
    TWIG_CACHE_STARTING_BLOCK;
    TWIG_CACHE_ENDING_BLOCK;
    TWIG_PROPS;
    TWIG_PROP_DECLARATION;
    TWIG_COMPONENT;
    TWIG_COMPONENT_STARTING_BLOCK;
    TWIG_COMPONENT_ENDING_BLOCK;
    TWIG_TRANS;
    TWIG_TRANS_STARTING_BLOCK;
    TWIG_TRANS_ENDING_BLOCK;
    SHOPWARE_TWIG_SW_EXTENDS;
    SHOPWARE_TWIG_SW_INCLUDE;
    SHOPWARE_SILENT_FEATURE_CALL;
    SHOPWARE_SILENT_FEATURE_CALL_STARTING_BLOCK;
    SHOPWARE_SILENT_FEATURE_CALL_ENDING_BLOCK;
    SHOPWARE_RETURN;
    SHOPWARE_ICON;
    SHOPWARE_ICON_STYLE;
    SHOPWARE_THUMBNAILS;
    SHOPWARE_THUMBNAILS_WITH;
    HTML_DOCTYPE;
    HTML_ATTRIBUTE_LIST;
    HTML_ATTRIBUTE;
    HTML_STRING;
    HTML_STRING_INNER;
    HTML_TEXT;
    HTML_RAW_TEXT;
    HTML_COMMENT;
    HTML_TAG;
    HTML_STARTING_TAG;
    HTML_ENDING_TAG;
    LUDTWIG_DIRECTIVE_FILE_IGNORE;
    LUDTWIG_DIRECTIVE_IGNORE;
    LUDTWIG_DIRECTIVE_RULE_LIST;
    ERROR;
    ROOT].

(** untyped.rs:35 derive(PartialEq, Eq) on SyntaxKind; compares discriminants. *)
Definition kind_eqb (a b : kind) : bool := N.eqb (kind_idx a) (kind_idx b).

(** untyped.rs:35 derive(Debug) on SyntaxKind: the variant name. *)
Definition kind_name (k : kind) : string :=
  match k with
  | TK_WHITESPACE => "TK_WHITESPACE"
  | TK_LINE_BREAK => "TK_LINE_BREAK"
  | TK_WORD => "TK_WORD"
  | TK_TWIG_COMPONENT_NAME => "TK_TWIG_COMPONENT_NAME"
  | TK_NUMBER => "TK_NUMBER"
  | TK_HTML_ESCAPE_CHARACTER => "TK_HTML_ESCAPE_CHARACTER"
  | TK_DOT => "TK_DOT"
  | TK_DOUBLE_DOT => "TK_DOUBLE_DOT"
  | TK_TRIPLE_DOT => "TK_TRIPLE_DOT"
  | TK_COMMA => "TK_COMMA"
  | TK_COLON => "TK_COLON"
  | TK_SEMICOLON => "TK_SEMICOLON"
  | TK_EXCLAMATION_MARK => "TK_EXCLAMATION_MARK"
  | TK_EXCLAMATION_MARK_EQUALS => "TK_EXCLAMATION_MARK_EQUALS"
  | TK_EXCLAMATION_MARK_DOUBLE_EQUALS => "TK_EXCLAMATION_MARK_DOUBLE_EQUALS"
  | TK_QUESTION_MARK => "TK_QUESTION_MARK"
  | TK_DOUBLE_QUESTION_MARK => "TK_DOUBLE_QUESTION_MARK"
  | TK_PERCENT => "TK_PERCENT"
  | TK_TILDE => "TK_TILDE"
  | TK_SINGLE_PIPE => "TK_SINGLE_PIPE"
  | TK_DOUBLE_PIPE => "TK_DOUBLE_PIPE"
  | TK_AMPERSAND => "TK_AMPERSAND"
  | TK_DOUBLE_AMPERSAND => "TK_DOUBLE_AMPERSAND"
  | TK_FORWARD_SLASH => "TK_FORWARD_SLASH"
  | TK_DOUBLE_FORWARD_SLASH => "TK_DOUBLE_FORWARD_SLASH"
  | TK_BACKWARD_SLASH => "TK_BACKWARD_SLASH"
  | TK_OPEN_PARENTHESIS => "TK_OPEN_PARENTHESIS"
  | TK_CLOSE_PARENTHESIS => "TK_CLOSE_PARENTHESIS"
  | TK_OPEN_CURLY => "TK_OPEN_CURLY"
  | TK_CLOSE_CURLY => "TK_CLOSE_CURLY"
  | TK_OPEN_SQUARE => "TK_OPEN_SQUARE"
  | TK_CLOSE_SQUARE => "TK_CLOSE_SQUARE"
  | TK_LESS_THAN => "TK_LESS_THAN"
  | TK_LESS_THAN_EQUAL => "TK_LESS_THAN_EQUAL"
  | TK_LESS_THAN_EQUAL_GREATER_THAN => "TK_LESS_THAN_EQUAL_GREATER_THAN"
  | TK_LESS_THAN_SLASH => "TK_LESS_THAN_SLASH"
  | TK_LESS_THAN_EXCLAMATION_MARK => "TK_LESS_THAN_EXCLAMATION_MARK"
  | TK_DOCTYPE => "TK_DOCTYPE"
  | TK_GREATER_THAN => "TK_GREATER_THAN"
  | TK_GREATER_THAN_EQUAL => "TK_GREATER_THAN_EQUAL"
  | TK_EQUAL_GREATER_THAN => "TK_EQUAL_GREATER_THAN"
  | TK_SLASH_GREATER_THAN => "TK_SLASH_GREATER_THAN"
  | TK_LESS_THAN_EXCLAMATION_MARK_MINUS_MINUS => "TK_LESS_THAN_EXCLAMATION_MARK_MINUS_MINUS"
  | TK_MINUS_MINUS_GREATER_THAN => "TK_MINUS_MINUS_GREATER_THAN"
  | TK_EQUAL => "TK_EQUAL"
  | TK_DOUBLE_EQUAL => "TK_DOUBLE_EQUAL"
  | TK_TRIPLE_EQUAL => "TK_TRIPLE_EQUAL"
  | TK_PLUS => "TK_PLUS"
  | TK_MINUS => "TK_MINUS"
  | TK_STAR => "TK_STAR"
  | TK_DOUBLE_STAR => "TK_DOUBLE_STAR"
  | TK_DOUBLE_QUOTES => "TK_DOUBLE_QUOTES"
  | TK_SINGLE_QUOTES => "TK_SINGLE_QUOTES"
  | TK_GRAVE_ACCENT_QUOTES => "TK_GRAVE_ACCENT_QUOTES"
  | TK_CURLY_PERCENT => "TK_CURLY_PERCENT"
  | TK_CURLY_PERCENT_MINUS => "TK_CURLY_PERCENT_MINUS"
  | TK_CURLY_PERCENT_TILDE => "TK_CURLY_PERCENT_TILDE"
  | TK_PERCENT_CURLY => "TK_PERCENT_CURLY"
  | TK_MINUS_PERCENT_CURLY => "TK_MINUS_PERCENT_CURLY"
  | TK_TILDE_PERCENT_CURLY => "TK_TILDE_PERCENT_CURLY"
  | TK_OPEN_CURLY_CURLY => "TK_OPEN_CURLY_CURLY"
  | TK_OPEN_CURLY_CURLY_MINUS => "TK_OPEN_CURLY_CURLY_MINUS"
  | TK_OPEN_CURLY_CURLY_TILDE => "TK_OPEN_CURLY_CURLY_TILDE"
  | TK_CLOSE_CURLY_CURLY => "TK_CLOSE_CURLY_CURLY"
  | TK_MINUS_CLOSE_CURLY_CURLY => "TK_MINUS_CLOSE_CURLY_CURLY"
  | TK_TILDE_CLOSE_CURLY_CURLY => "TK_TILDE_CLOSE_CURLY_CURLY"
  | TK_OPEN_CURLY_HASHTAG => "TK_OPEN_CURLY_HASHTAG"
  | TK_OPEN_CURLY_HASHTAG_MINUS => "TK_OPEN_CURLY_HASHTAG_MINUS"
  | TK_OPEN_CURLY_HASHTAG_TILDE => "TK_OPEN_CURLY_HASHTAG_TILDE"
  | TK_HASHTAG_CLOSE_CURLY => "TK_HASHTAG_CLOSE_CURLY"
  | TK_MINUS_HASHTAG_CLOSE_CURLY => "TK_MINUS_HASHTAG_CLOSE_CURLY"
  | TK_TILDE_HASHTAG_CLOSE_CURLY => "TK_TILDE_HASHTAG_CLOSE_CURLY"
  | TK_HASHTAG => "TK_HASHTAG"
  | TK_TRUE => "TK_TRUE"
  | TK_FALSE => "TK_FALSE"
  | TK_BLOCK => "TK_BLOCK"
  | TK_ENDBLOCK => "TK_ENDBLOCK"
  | TK_IF => "TK_IF"
  | TK_ELSE_IF => "TK_ELSE_IF"
  | TK_ELSE => "TK_ELSE"
  | TK_ENDIF => "TK_ENDIF"
  | TK_APPLY => "TK_APPLY"
  | TK_ENDAPPLY => "TK_ENDAPPLY"
  | TK_AUTOESCAPE => "TK_AUTOESCAPE"
  | TK_ENDAUTOESCAPE => "TK_ENDAUTOESCAPE"
  | TK_CACHE => "TK_CACHE"
  | TK_ENDCACHE => "TK_ENDCACHE"
  | TK_DEPRECATED => "TK_DEPRECATED"
  | TK_DO => "TK_DO"
  | TK_EMBED => "TK_EMBED"
  | TK_ENDEMBED => "TK_ENDEMBED"
  | TK_EXTENDS => "TK_EXTENDS"
  | TK_FLUSH => "TK_FLUSH"
  | TK_FOR => "TK_FOR"
  | TK_ENDFOR => "TK_ENDFOR"
  | TK_FROM => "TK_FROM"
  | TK_IMPORT => "TK_IMPORT"
  | TK_MACRO => "TK_MACRO"
  | TK_ENDMACRO => "TK_ENDMACRO"
  | TK_SANDBOX => "TK_SANDBOX"
  | TK_ENDSANDBOX => "TK_ENDSANDBOX"
  | TK_SET => "TK_SET"
  | TK_ENDSET => "TK_ENDSET"
  | TK_USE => "TK_USE"
  | TK_VERBATIM => "TK_VERBATIM"
  | TK_ENDVERBATIM => "TK_ENDVERBATIM"
  | TK_ONLY => "TK_ONLY"
  | TK_IGNORE_MISSING => "TK_IGNORE_MISSING"
  | TK_WITH => "TK_WITH"
  | TK_ENDWITH => "TK_ENDWITH"
  | TK_TTL => "TK_TTL"
  | TK_TAGS => "TK_TAGS"
  | TK_PROPS => "TK_PROPS"
  | TK_COMPONENT => "TK_COMPONENT"
  | TK_ENDCOMPONENT => "TK_ENDCOMPONENT"
  | TK_NOT => "TK_NOT"
  | TK_NOT_IN => "TK_NOT_IN"
  | TK_OR => "TK_OR"
  | TK_AND => "TK_AND"
  | TK_BINARY_OR => "TK_BINARY_OR"
  | TK_BINARY_XOR => "TK_BINARY_XOR"
  | TK_BINARY_AND => "TK_BINARY_AND"
  | TK_IN => "TK_IN"
  | TK_MATCHES => "TK_MATCHES"
  | TK_STARTS_WITH => "TK_STARTS_WITH"
  | TK_ENDS_WITH => "TK_ENDS_WITH"
  | TK_IS => "TK_IS"
  | TK_IS_NOT => "TK_IS_NOT"
  | TK_EVEN => "TK_EVEN"
  | TK_ODD => "TK_ODD"
  | TK_DEFINED => "TK_DEFINED"
  | TK_SAME_AS => "TK_SAME_AS"
  | TK_AS => "TK_AS"
  | TK_NONE => "TK_NONE"
  | TK_NULL => "TK_NULL"
  | TK_DIVISIBLE_BY => "TK_DIVISIBLE_BY"
  | TK_CONSTANT => "TK_CONSTANT"
  | TK_EMPTY => "TK_EMPTY"
  | TK_ITERABLE => "TK_ITERABLE"
  | TK_MAX => "TK_MAX"
  | TK_MIN => "TK_MIN"
  | TK_RANGE => "TK_RANGE"
  | TK_CYCLE => "TK_CYCLE"
  | TK_RANDOM => "TK_RANDOM"
  | TK_DATE => "TK_DATE"
  | TK_INCLUDE => "TK_INCLUDE"
  | TK_SOURCE => "TK_SOURCE"
  | TK_TRANS => "TK_TRANS"
  | TK_ENDTRANS => "TK_ENDTRANS"
  | TK_SW_EXTENDS => "TK_SW_EXTENDS"
  | TK_SW_SILENT_FEATURE_CALL => "TK_SW_SILENT_FEATURE_CALL"
  | TK_ENDSW_SILENT_FEATURE_CALL => "TK_ENDSW_SILENT_FEATURE_CALL"
  | TK_SW_INCLUDE => "TK_SW_INCLUDE"
  | TK_RETURN => "TK_RETURN"
  | TK_SW_ICON => "TK_SW_ICON"
  | TK_SW_THUMBNAILS => "TK_SW_THUMBNAILS"
  | TK_STYLE => "TK_STYLE"
  | TK_SW_EMBED => "TK_SW_EMBED"
  | TK_SW_END_EMBED => "TK_SW_END_EMBED"
  | TK_SW_USE => "TK_SW_USE"
  | TK_SW_IMPORT => "TK_SW_IMPORT"
  | TK_SW_FROM => "TK_SW_FROM"
  | TK_LUDTWIG_IGNORE_FILE => "TK_LUDTWIG_IGNORE_FILE"
  | TK_LUDTWIG_IGNORE => "TK_LUDTWIG_IGNORE"
  | TK_UNKNOWN => "TK_UNKNOWN"
  | BODY => "BODY"
  | TWIG_VAR => "TWIG_VAR"
  | TWIG_EXPRESSION => "TWIG_EXPRESSION"
  | TWIG_BINARY_EXPRESSION => "TWIG_BINARY_EXPRESSION"
  | TWIG_UNARY_EXPRESSION => "TWIG_UNARY_EXPRESSION"
  | TWIG_PARENTHESES_EXPRESSION => "TWIG_PARENTHESES_EXPRESSION"
  | TWIG_CONDITIONAL_EXPRESSION => "TWIG_CONDITIONAL_EXPRESSION"
  | TWIG_OPERAND => "TWIG_OPERAND"
  | TWIG_ACCESSOR => "TWIG_ACCESSOR"
  | TWIG_FILTER => "TWIG_FILTER"
  | TWIG_INDEX_LOOKUP => "TWIG_INDEX_LOOKUP"
  | TWIG_INDEX => "TWIG_INDEX"
  | TWIG_INDEX_RANGE => "TWIG_INDEX_RANGE"
  | TWIG_FUNCTION_CALL => "TWIG_FUNCTION_CALL"
  | TWIG_ARROW_FUNCTION => "TWIG_ARROW_FUNCTION"
  | TWIG_ARGUMENTS => "TWIG_ARGUMENTS"
  | TWIG_NAMED_ARGUMENT => "TWIG_NAMED_ARGUMENT"
  | TWIG_LITERAL_STRING => "TWIG_LITERAL_STRING"
  | TWIG_LITERAL_STRING_INNER => "TWIG_LITERAL_STRING_INNER"
  | TWIG_LITERAL_STRING_INTERPOLATION => "TWIG_LITERAL_STRING_INTERPOLATION"
  | TWIG_LITERAL_NUMBER => "TWIG_LITERAL_NUMBER"
  | TWIG_LITERAL_ARRAY => "TWIG_LITERAL_ARRAY"
  | TWIG_LITERAL_ARRAY_INNER => "TWIG_LITERAL_ARRAY_INNER"
  | TWIG_LITERAL_NULL => "TWIG_LITERAL_NULL"
  | TWIG_LITERAL_BOOLEAN => "TWIG_LITERAL_BOOLEAN"
  | TWIG_LITERAL_HASH => "TWIG_LITERAL_HASH"
  | TWIG_LITERAL_HASH_ITEMS => "TWIG_LITERAL_HASH_ITEMS"
  | TWIG_LITERAL_HASH_PAIR => "TWIG_LITERAL_HASH_PAIR"
  | TWIG_LITERAL_HASH_KEY => "TWIG_LITERAL_HASH_KEY"
  | TWIG_LITERAL_HASH_VALUE => "TWIG_LITERAL_HASH_VALUE"
  | TWIG_LITERAL_NAME => "TWIG_LITERAL_NAME"
  | TWIG_COMMENT => "TWIG_COMMENT"
  | TWIG_BLOCK => "TWIG_BLOCK"
  | TWIG_STARTING_BLOCK => "TWIG_STARTING_BLOCK"
  | TWIG_ENDING_BLOCK => "TWIG_ENDING_BLOCK"
  | TWIG_IF => "TWIG_IF"
  | TWIG_IF_BLOCK => "TWIG_IF_BLOCK"
  | TWIG_ELSE_IF_BLOCK => "TWIG_ELSE_IF_BLOCK"
  | TWIG_ELSE_BLOCK => "TWIG_ELSE_BLOCK"
  | TWIG_ENDIF_BLOCK => "TWIG_ENDIF_BLOCK"
  | TWIG_SET => "TWIG_SET"
  | TWIG_SET_BLOCK => "TWIG_SET_BLOCK"
  | TWIG_ENDSET_BLOCK => "TWIG_ENDSET_BLOCK"
  | TWIG_ASSIGNMENT => "TWIG_ASSIGNMENT"
  | TWIG_FOR => "TWIG_FOR"
  | TWIG_FOR_BLOCK => "TWIG_FOR_BLOCK"
  | TWIG_FOR_ELSE_BLOCK => "TWIG_FOR_ELSE_BLOCK"
  | TWIG_ENDFOR_BLOCK => "TWIG_ENDFOR_BLOCK"
  | TWIG_EXTENDS => "TWIG_EXTENDS"
  | TWIG_INCLUDE => "TWIG_INCLUDE"
  | TWIG_INCLUDE_WITH => "TWIG_INCLUDE_WITH"
  | TWIG_USE => "TWIG_USE"
  | TWIG_OVERRIDE => "TWIG_OVERRIDE"
  | TWIG_APPLY => "TWIG_APPLY"
  | TWIG_APPLY_STARTING_BLOCK => "TWIG_APPLY_STARTING_BLOCK"
  | TWIG_APPLY_ENDING_BLOCK => "TWIG_APPLY_ENDING_BLOCK"
  | TWIG_AUTOESCAPE => "TWIG_AUTOESCAPE"
  | TWIG_AUTOESCAPE_STARTING_BLOCK => "TWIG_AUTOESCAPE_STARTING_BLOCK"
  | TWIG_AUTOESCAPE_ENDING_BLOCK => "TWIG_AUTOESCAPE_ENDING_BLOCK"
  | TWIG_DEPRECATED => "TWIG_DEPRECATED"
  | TWIG_DO => "TWIG_DO"
  | TWIG_EMBED => "TWIG_EMBED"
  | TWIG_EMBED_STARTING_BLOCK => "TWIG_EMBED_STARTING_BLOCK"
  | TWIG_EMBED_ENDING_BLOCK => "TWIG_EMBED_ENDING_BLOCK"
  | TWIG_FLUSH => "TWIG_FLUSH"
  | TWIG_FROM => "TWIG_FROM"
  | TWIG_IMPORT => "TWIG_IMPORT"
  | TWIG_SANDBOX => "TWIG_SANDBOX"
  | TWIG_SANDBOX_STARTING_BLOCK => "TWIG_SANDBOX_STARTING_BLOCK"
  | TWIG_SANDBOX_ENDING_BLOCK => "TWIG_SANDBOX_ENDING_BLOCK"
  | TWIG_VERBATIM => "TWIG_VERBATIM"
  | TWIG_VERBATIM_STARTING_BLOCK => "TWIG_VERBATIM_STARTING_BLOCK"
  | TWIG_VERBATIM_ENDING_BLOCK => "TWIG_VERBATIM_ENDING_BLOCK"
  | TWIG_MACRO => "TWIG_MACRO"
  | TWIG_MACRO_STARTING_BLOCK => "TWIG_MACRO_STARTING_BLOCK"
  | TWIG_MACRO_ENDING_BLOCK => "TWIG_MACRO_ENDING_BLOCK"
  | TWIG_WITH => "TWIG_WITH"
  | TWIG_WITH_STARTING_BLOCK => "TWIG_WITH_STARTING_BLOCK"
  | TWIG_WITH_ENDING_BLOCK => "TWIG_WITH_ENDING_BLOCK"
  | TWIG_CACHE => "TWIG_CACHE"
  | TWIG_CACHE_TTL => "TWIG_CACHE_TTL"
  | TWIG_CACHE_TAGS => "TWIG_CACHE_TAGS"
  | TWIG_CACHE_STARTING_BLOCK => "TWIG_CACHE_STARTING_BLOCK"
  | TWIG_CACHE_ENDING_BLOCK => "TWIG_CACHE_ENDING_BLOCK"
  | TWIG_PROPS => "TWIG_PROPS"
  | TWIG_PROP_DECLARATION => "TWIG_PROP_DECLARATION"
  | TWIG_COMPONENT => "TWIG_COMPONENT"
  | TWIG_COMPONENT_STARTING_BLOCK => "TWIG_COMPONENT_STARTING_BLOCK"
  | TWIG_COMPONENT_ENDING_BLOCK => "TWIG_COMPONENT_ENDING_BLOCK"
  | TWIG_TRANS => "TWIG_TRANS"
  | TWIG_TRANS_STARTING_BLOCK => "TWIG_TRANS_STARTING_BLOCK"
  | TWIG_TRANS_ENDING_BLOCK => "TWIG_TRANS_ENDING_BLOCK"
  | SHOPWARE_TWIG_SW_EXTENDS => "SHOPWARE_TWIG_SW_EXTENDS"
  | SHOPWARE_TWIG_SW_INCLUDE => "SHOPWARE_TWIG_SW_INCLUDE"
  | SHOPWARE_SILENT_FEATURE_CALL => "SHOPWARE_SILENT_FEATURE_CALL"
  | SHOPWARE_SILENT_FEATURE_CALL_STARTING_BLOCK => "SHOPWARE_SILENT_FEATURE_CALL_STARTING_BLOCK"
  | SHOPWARE_SILENT_FEATURE_CALL_ENDING_BLOCK => "SHOPWARE_SILENT_FEATURE_CALL_ENDING_BLOCK"
  | SHOPWARE_RETURN => "SHOPWARE_RETURN"
  | SHOPWARE_ICON => "SHOPWARE_ICON"
  | SHOPWARE_ICON_STYLE => "SHOPWARE_ICON_STYLE"
  | SHOPWARE_THUMBNAILS => "SHOPWARE_THUMBNAILS"
  | SHOPWARE_THUMBNAILS_WITH => "SHOPWARE_THUMBNAILS_WITH"
  | HTML_DOCTYPE => "HTML_DOCTYPE"
  | HTML_ATTRIBUTE_LIST => "HTML_ATTRIBUTE_LIST"
  | HTML_ATTRIBUTE => "HTML_ATTRIBUTE"
  | HTML_STRING => "HTML_STRING"
  | HTML_STRING_INNER => "HTML_STRING_INNER"
  | HTML_TEXT => "HTML_TEXT"
  | HTML_RAW_TEXT => "HTML_RAW_TEXT"
  | HTML_COMMENT => "HTML_COMMENT"
  | HTML_TAG => "HTML_TAG"
  | HTML_STARTING_TAG => "HTML_STARTING_TAG"
  | HTML_ENDING_TAG => "HTML_ENDING_TAG"
  | LUDTWIG_DIRECTIVE_FILE_IGNORE => "LUDTWIG_DIRECTIVE_FILE_IGNORE"
  | LUDTWIG_DIRECTIVE_IGNORE => "LUDTWIG_DIRECTIVE_IGNORE"
  | LUDTWIG_DIRECTIVE_RULE_LIST => "LUDTWIG_DIRECTIVE_RULE_LIST"
  | ERROR => "ERROR"
  | ROOT => "ROOT"
  end.

(** untyped.rs:756-928  impl Display for SyntaxKind; [None] is the [unreachable!] arm. *)
Definition kind_display (k : kind) : option string :=
  match k with
  | TK_WHITESPACE => Some "whitespace"
  | TK_LINE_BREAK => Some "line break"
  | TK_WORD => Some "word"
  | TK_TWIG_COMPONENT_NAME => Some "twig component name"
  | TK_NUMBER => Some "number"
  | TK_HTML_ESCAPE_CHARACTER => Some "html escape character"
  | TK_DOT => Some "."
  | TK_DOUBLE_DOT => Some ".."
  | TK_TRIPLE_DOT => Some "..."
  | TK_COMMA => Some ","
  | TK_COLON => Some ":"
  | TK_SEMICOLON => Some ";"
  | TK_EXCLAMATION_MARK => Some "!"
  | TK_EXCLAMATION_MARK_EQUALS => Some "!="
  | TK_EXCLAMATION_MARK_DOUBLE_EQUALS => Some "!=="
  | TK_QUESTION_MARK => Some "?"
  | TK_DOUBLE_QUESTION_MARK => Some "??"
  | TK_PERCENT => Some "%"
  | TK_TILDE => Some "~"
  | TK_SINGLE_PIPE => Some "|"
  | TK_DOUBLE_PIPE => Some "||"
  | TK_AMPERSAND => Some "&"
  | TK_DOUBLE_AMPERSAND => Some "&&"
  | TK_FORWARD_SLASH => Some "/"
  | TK_DOUBLE_FORWARD_SLASH => Some "//"
  | TK_BACKWARD_SLASH => Some "\"
  | TK_OPEN_PARENTHESIS => Some "("
  | TK_CLOSE_PARENTHESIS => Some ")"
  | TK_OPEN_CURLY => Some "{"
  | TK_CLOSE_CURLY => Some "}"
  | TK_OPEN_SQUARE => Some "["
  | TK_CLOSE_SQUARE => Some "]"
  | TK_LESS_THAN => Some "<"
  | TK_LESS_THAN_EQUAL => Some "<="
  | TK_LESS_THAN_EQUAL_GREATER_THAN => Some "<=>"
  | TK_LESS_THAN_SLASH => Some "</"
  | TK_LESS_THAN_EXCLAMATION_MARK => Some "<!"
  | TK_DOCTYPE => Some "DOCTYPE"
  | TK_GREATER_THAN => Some ">"
  | TK_GREATER_THAN_EQUAL => Some ">="
  | TK_EQUAL_GREATER_THAN => Some "=>"
  | TK_SLASH_GREATER_THAN => Some "/>"
  | TK_LESS_THAN_EXCLAMATION_MARK_MINUS_MINUS => Some "<!--"
  | TK_MINUS_MINUS_GREATER_THAN => Some "-->"
  | TK_EQUAL => Some "="
  | TK_DOUBLE_EQUAL => Some "=="
  | TK_TRIPLE_EQUAL => Some "==="
  | TK_PLUS => Some "+"
  | TK_MINUS => Some "-"
  | TK_STAR => Some "*"
  | TK_DOUBLE_STAR => Some "**"
  | TK_DOUBLE_QUOTES => Some """"
  | TK_SINGLE_QUOTES => Some "'"
  | TK_GRAVE_ACCENT_QUOTES => Some "`"
  | TK_CURLY_PERCENT => Some "{%"
  | TK_CURLY_PERCENT_MINUS => Some "{%-"
  | TK_CURLY_PERCENT_TILDE => Some "{%~"
  | TK_PERCENT_CURLY => Some "%}"
  | TK_MINUS_PERCENT_CURLY => Some "-%}"
  | TK_TILDE_PERCENT_CURLY => Some "~%}"
  | TK_OPEN_CURLY_CURLY => Some "{{"
  | TK_OPEN_CURLY_CURLY_MINUS => Some "{{-"
  | TK_OPEN_CURLY_CURLY_TILDE => Some "{{~"
  | TK_CLOSE_CURLY_CURLY => Some "}}"
  | TK_MINUS_CLOSE_CURLY_CURLY => Some "-}}"
  | TK_TILDE_CLOSE_CURLY_CURLY => Some "~}}"
  | TK_OPEN_CURLY_HASHTAG => Some "{#"
  | TK_OPEN_CURLY_HASHTAG_MINUS => Some "{#-"
  | TK_OPEN_CURLY_HASHTAG_TILDE => Some "{#~"
  | TK_HASHTAG_CLOSE_CURLY => Some "#}"
  | TK_MINUS_HASHTAG_CLOSE_CURLY => Some "-#}"
  | TK_TILDE_HASHTAG_CLOSE_CURLY => Some "~#}"
  | TK_HASHTAG => Some "#"
  | TK_TRUE => Some "true"
  | TK_FALSE => Some "false"
  | TK_BLOCK => Some "block"
  | TK_ENDBLOCK => Some "endblock"
  | TK_IF => Some "if"
  | TK_ELSE_IF => Some "elseif"
  | TK_ELSE => Some "else"
  | TK_ENDIF => Some "endif"
  | TK_APPLY => Some "apply"
  | TK_ENDAPPLY => Some "endapply"
  | TK_AUTOESCAPE => Some "autoescape"
  | TK_ENDAUTOESCAPE => Some "endautoescape"
  | TK_CACHE => Some "cache"
  | TK_ENDCACHE => Some "endcache"
  | TK_DEPRECATED => Some "deprecated"
  | TK_DO => Some "do"
  | TK_EMBED => Some "embed"
  | TK_ENDEMBED => Some "endembed"
  | TK_EXTENDS => Some "extends"
  | TK_FLUSH => Some "flush"
  | TK_FOR => Some "for"
  | TK_ENDFOR => Some "endfor"
  | TK_FROM => Some "from"
  | TK_IMPORT => Some "import"
  | TK_MACRO => Some "macro"
  | TK_ENDMACRO => Some "endmacro"
  | TK_SANDBOX => Some "sandbox"
  | TK_ENDSANDBOX => Some "endsandbox"
  | TK_SET => Some "set"
  | TK_ENDSET => Some "endset"
  | TK_USE => Some "use"
  | TK_VERBATIM => Some "verbatim"
  | TK_ENDVERBATIM => Some "endverbatim"
  | TK_ONLY => Some "only"
  | TK_IGNORE_MISSING => Some "ignore missing"
  | TK_WITH => Some "with"
  | TK_ENDWITH => Some "endwith"
  | TK_TTL => Some "ttl"
  | TK_TAGS => Some "tags"
  | TK_PROPS => Some "props"
  | TK_COMPONENT => Some "component"
  | TK_ENDCOMPONENT => Some "endcomponent"
  | TK_NOT => Some "not"
  | TK_NOT_IN => Some "not in"
  | TK_OR => Some "or"
  | TK_AND => Some "and"
  | TK_BINARY_OR => Some "b-or"
  | TK_BINARY_XOR => Some "b-xor"
  | TK_BINARY_AND => Some "b-and"
  | TK_IN => Some "in"
  | TK_MATCHES => Some "matches"
  | TK_STARTS_WITH => Some "starts with"
  | TK_ENDS_WITH => Some "ends with"
  | TK_IS => Some "is"
  | TK_IS_NOT => Some "is not"
  | TK_EVEN => Some "even"
  | TK_ODD => Some "odd"
  | TK_DEFINED => Some "defined"
  | TK_SAME_AS => Some "same as"
  | TK_AS => Some "as"
  | TK_NONE => Some "none"
  | TK_NULL => Some "null"
  | TK_DIVISIBLE_BY => Some "divisible by"
  | TK_CONSTANT => Some "constant"
  | TK_EMPTY => Some "empty"
  | TK_ITERABLE => Some "iterable"
  | TK_MAX => Some "max"
  | TK_MIN => Some "min"
  | TK_RANGE => Some "range"
  | TK_CYCLE => Some "cycle"
  | TK_RANDOM => Some "random"
  | TK_DATE => Some "date"
  | TK_INCLUDE => Some "include"
  | TK_SOURCE => Some "source"
  | TK_TRANS => Some "trans"
  | TK_ENDTRANS => Some "endtrans"
  | TK_SW_EXTENDS => Some "sw_extends"
  | TK_SW_SILENT_FEATURE_CALL => Some "sw_silent_feature_call"
  | TK_ENDSW_SILENT_FEATURE_CALL => Some "endsw_silent_feature_call"
  | TK_SW_INCLUDE => Some "sw_include"
  | TK_RETURN => Some "return"
  | TK_SW_ICON => Some "sw_icon"
  | TK_SW_THUMBNAILS => Some "sw_thumbnails"
  | TK_STYLE => Some "style"
  | TK_SW_EMBED => Some "sw_embed"
  | TK_SW_END_EMBED => Some "sw_end_embed"
  | TK_SW_USE => Some "sw_use"
  | TK_SW_IMPORT => Some "sw_import"
  | TK_SW_FROM => Some "sw_from"
  | TK_LUDTWIG_IGNORE_FILE => Some "ludtwig-ignore-file"
  | TK_LUDTWIG_IGNORE => Some "ludtwig-ignore"
  | TK_UNKNOWN => Some "unknown"
  | ERROR => Some "error"
  | _ => None
  end.

(** untyped.rs:930-936  SyntaxKind::is_trivia. *)
Definition is_trivia (k : kind) : bool :=
  match k with TK_WHITESPACE | TK_LINE_BREAK => true | _ => false end.
