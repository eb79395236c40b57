(** Lexer: crates/ludtwig-parser/src/lexer.rs and the logos attributes and callbacks of
    crates/ludtwig-parser/src/syntax/untyped.rs.

    logos itself (0.16) is modelled by its documented contract: at every position the
    longest match over all patterns wins, on equal length the higher priority wins (a
    literal always has a higher priority than TK_WORD here), and an unmatched position
    yields an error of one char.  [ignore(case)] is modelled as ASCII case folding. *)
From Coq Require Import List NArith String Bool.
Import ListNotations.
From Verif Require Import Text Kind Regex.
Local Open Scope string_scope.

(** lexer.rs:33-38  struct Token (text and byte range). *)
Record token : Set := mkTok { tk_kind : kind; tk_text : text; tk_start : nat; tk_end : nat }.

(** [a-zA-Z] of the regexes, syntax/untyped.rs:50-59 *)
Definition cl_letter : cclass := [(97,122);(65,90)]%N.
(** [0-9] of the regexes, syntax/untyped.rs:50-59 *)
Definition cl_digit : cclass := [(48,57)]%N.
(** [a-zA-Z0-9_\-] of the regexes, syntax/untyped.rs:50-53 *)
Definition cl_word : cclass := [(97,122);(65,90);(48,57);(95,95);(45,45)]%N.

(** untyped.rs:43  [ \t]+ *)
Definition re_ws : regex := RPlus (RClass [(32,32);(9,9)]%N).
(** untyped.rs:45  ((\n)|(\r\n))+ *)
Definition re_lb : regex := RPlus (RAlt (RChar 10) (RSeq (RChar 13) (RChar 10))).
(** untyped.rs:50  ([a-zA-Z]|([@\#_\$][a-zA-Z])|_)[a-zA-Z0-9_\-]* *)
Definition re_word : regex :=
  RSeq (RAlt (RClass cl_letter)
       (RAlt (RSeq (RClass [(64,64);(35,35);(95,95);(36,36)]%N) (RClass cl_letter)) (RChar 95)))
       (RStar (RClass cl_word)).
(** untyped.rs:53  twig(\:[a-zA-Z0-9_\-]+)+ *)
Definition re_component : regex :=
  RSeq (RChar 116) (RSeq (RChar 119) (RSeq (RChar 105) (RSeq (RChar 103)
    (RPlus (RSeq (RChar 58) (RPlus (RClass cl_word))))))).
(** untyped.rs:56  [0-9]+(\.[0-9]+)?([Ee][\+\-][0-9]+)? *)
Definition re_number : regex :=
  RSeq (RPlus (RClass cl_digit))
    (RSeq (ROpt (RSeq (RChar 46) (RPlus (RClass cl_digit))))
          (ROpt (RSeq (RClass [(69,69);(101,101)]%N)
                (RSeq (RClass [(43,43);(45,45)]%N) (RPlus (RClass cl_digit)))))).
(** untyped.rs:59  \&(([a-zA-Z][a-zA-Z0-9]* )|(\#[0-9]+)|(\#x[0-9a-fA-F]+)); *)
Definition re_escape : regex :=
  RSeq (RChar 38) (RSeq
    (RAlt (RSeq (RClass cl_letter) (RStar (RClass [(97,122);(65,90);(48,57)]%N)))
    (RAlt (RSeq (RChar 35) (RPlus (RClass cl_digit)))
          (RSeq (RChar 35) (RSeq (RChar 120) (RPlus (RClass [(48,57);(97,102);(65,70)]%N))))))
    (RChar 59)).

(** A logos pattern: [#[token("..")]], [#[token("..", ignore(case))]], [#[regex(..)]]. *)
Inductive pattern : Set :=
| PLit (s : string)
| PLitCI (s : string)
| PRe (r : regex).

(** Prefix test up to ASCII case: logos [ignore(case)]. *)
Fixpoint starts_with_ci (p t : text) : bool :=
  match p, t with
  | [], _ => true
  | x :: p', y :: t' => N.eqb (to_lower_ascii x) (to_lower_ascii y) && starts_with_ci p' t'
  | _ :: _, [] => false
  end.

(** Length of the longest prefix matched by one pattern. *)
Definition pat_len (p : pattern) (s : text) : option nat :=
  match p with
  | PLit l => if starts_with (txt l) s then Some (String.length l) else None
  | PLitCI l => if starts_with_ci (txt l) s then Some (String.length l) else None
  | PRe r => rlong r s
  end.

(** untyped.rs:43-385  the patterns; earlier entries win ties (all literals come before
    the regular expressions, as their logos priority is higher). *)
Definition lex_table : list (pattern * kind) :=
  [
    (PLit ".", TK_DOT) ; (* :61 *)
    (PLit "..", TK_DOUBLE_DOT) ; (* :63 *)
    (PLit "...", TK_TRIPLE_DOT) ; (* :65 *)
    (PLit ",", TK_COMMA) ; (* :67 *)
    (PLit ":", TK_COLON) ; (* :69 *)
    (PLit ";", TK_SEMICOLON) ; (* :71 *)
    (PLit "!", TK_EXCLAMATION_MARK) ; (* :73 *)
    (PLit "!=", TK_EXCLAMATION_MARK_EQUALS) ; (* :75 *)
    (PLit "!==", TK_EXCLAMATION_MARK_DOUBLE_EQUALS) ; (* :77 *)
    (PLit "?", TK_QUESTION_MARK) ; (* :79 *)
    (PLit "??", TK_DOUBLE_QUESTION_MARK) ; (* :81 *)
    (PLit "%", TK_PERCENT) ; (* :83 *)
    (PLit "~", TK_TILDE) ; (* :85 *)
    (PLit "|", TK_SINGLE_PIPE) ; (* :87 *)
    (PLit "||", TK_DOUBLE_PIPE) ; (* :89 *)
    (PLit "&", TK_AMPERSAND) ; (* :91 *)
    (PLit "&&", TK_DOUBLE_AMPERSAND) ; (* :93 *)
    (PLit "/", TK_FORWARD_SLASH) ; (* :95 *)
    (PLit "//", TK_DOUBLE_FORWARD_SLASH) ; (* :97 *)
    (PLit "\", TK_BACKWARD_SLASH) ; (* :99 *)
    (PLit "(", TK_OPEN_PARENTHESIS) ; (* :101 *)
    (PLit ")", TK_CLOSE_PARENTHESIS) ; (* :103 *)
    (PLit "{", TK_OPEN_CURLY) ; (* :105 *)
    (PLit "}", TK_CLOSE_CURLY) ; (* :107 *)
    (PLit "[", TK_OPEN_SQUARE) ; (* :109 *)
    (PLit "]", TK_CLOSE_SQUARE) ; (* :111 *)
    (PLit "<", TK_LESS_THAN) ; (* :113 *)
    (PLit "<=", TK_LESS_THAN_EQUAL) ; (* :115 *)
    (PLit "<=>", TK_LESS_THAN_EQUAL_GREATER_THAN) ; (* :117 *)
    (PLit "</", TK_LESS_THAN_SLASH) ; (* :119 *)
    (PLit "<!", TK_LESS_THAN_EXCLAMATION_MARK) ; (* :121 *)
    (PLitCI "DOCTYPE", TK_DOCTYPE) ; (* :123 *)
    (PLit ">", TK_GREATER_THAN) ; (* :125 *)
    (PLit ">=", TK_GREATER_THAN_EQUAL) ; (* :127 *)
    (PLit "=>", TK_EQUAL_GREATER_THAN) ; (* :129 *)
    (PLit "/>", TK_SLASH_GREATER_THAN) ; (* :131 *)
    (PLit "<!--", TK_LESS_THAN_EXCLAMATION_MARK_MINUS_MINUS) ; (* :133 *)
    (PLit "-->", TK_MINUS_MINUS_GREATER_THAN) ; (* :135 *)
    (PLit "=", TK_EQUAL) ; (* :137 *)
    (PLit "==", TK_DOUBLE_EQUAL) ; (* :139 *)
    (PLit "===", TK_TRIPLE_EQUAL) ; (* :141 *)
    (PLit "+", TK_PLUS) ; (* :143 *)
    (PLit "-", TK_MINUS) ; (* :145 *)
    (PLit "*", TK_STAR) ; (* :147 *)
    (PLit "**", TK_DOUBLE_STAR) ; (* :149 *)
    (PLit """", TK_DOUBLE_QUOTES) ; (* :151 *)
    (PLit "'", TK_SINGLE_QUOTES) ; (* :153 *)
    (PLit "`", TK_GRAVE_ACCENT_QUOTES) ; (* :155 *)
    (PLit "{%", TK_CURLY_PERCENT) ; (* :157 *)
    (PLit "{%-", TK_CURLY_PERCENT_MINUS) ; (* :159 *)
    (PLit "{%~", TK_CURLY_PERCENT_TILDE) ; (* :161 *)
    (PLit "%}", TK_PERCENT_CURLY) ; (* :163 *)
    (PLit "-%}", TK_MINUS_PERCENT_CURLY) ; (* :165 *)
    (PLit "~%}", TK_TILDE_PERCENT_CURLY) ; (* :167 *)
    (PLit "{{", TK_OPEN_CURLY_CURLY) ; (* :169 *)
    (PLit "{{-", TK_OPEN_CURLY_CURLY_MINUS) ; (* :171 *)
    (PLit "{{~", TK_OPEN_CURLY_CURLY_TILDE) ; (* :173 *)
    (PLit "}}", TK_CLOSE_CURLY_CURLY) ; (* :175 *)
    (PLit "-}}", TK_MINUS_CLOSE_CURLY_CURLY) ; (* :177 *)
    (PLit "~}}", TK_TILDE_CLOSE_CURLY_CURLY) ; (* :179 *)
    (PLit "{#", TK_OPEN_CURLY_HASHTAG) ; (* :181 *)
    (PLit "{#-", TK_OPEN_CURLY_HASHTAG_MINUS) ; (* :183 *)
    (PLit "{#~", TK_OPEN_CURLY_HASHTAG_TILDE) ; (* :185 *)
    (PLit "#}", TK_HASHTAG_CLOSE_CURLY) ; (* :187 *)
    (PLit "-#}", TK_MINUS_HASHTAG_CLOSE_CURLY) ; (* :189 *)
    (PLit "~#}", TK_TILDE_HASHTAG_CLOSE_CURLY) ; (* :191 *)
    (PLit "#", TK_HASHTAG) ; (* :193 *)
    (PLitCI "true", TK_TRUE) ; (* :196 *)
    (PLitCI "false", TK_FALSE) ; (* :198 *)
    (PLit "block", TK_BLOCK) ; (* :202 *)
    (PLit "endblock", TK_ENDBLOCK) ; (* :204 *)
    (PLit "if", TK_IF) ; (* :206 *)
    (PLit "elseif", TK_ELSE_IF) ; (* :208 *)
    (PLit "else", TK_ELSE) ; (* :210 *)
    (PLit "endif", TK_ENDIF) ; (* :212 *)
    (PLit "apply", TK_APPLY) ; (* :214 *)
    (PLit "endapply", TK_ENDAPPLY) ; (* :216 *)
    (PLit "autoescape", TK_AUTOESCAPE) ; (* :218 *)
    (PLit "endautoescape", TK_ENDAUTOESCAPE) ; (* :220 *)
    (PLit "cache", TK_CACHE) ; (* :222 *)
    (PLit "endcache", TK_ENDCACHE) ; (* :224 *)
    (PLit "deprecated", TK_DEPRECATED) ; (* :226 *)
    (PLit "do", TK_DO) ; (* :228 *)
    (PLit "embed", TK_EMBED) ; (* :230 *)
    (PLit "endembed", TK_ENDEMBED) ; (* :232 *)
    (PLit "extends", TK_EXTENDS) ; (* :234 *)
    (PLit "flush", TK_FLUSH) ; (* :236 *)
    (PLit "for", TK_FOR) ; (* :238 *)
    (PLit "endfor", TK_ENDFOR) ; (* :240 *)
    (PLit "from", TK_FROM) ; (* :242 *)
    (PLit "import", TK_IMPORT) ; (* :244 *)
    (PLit "macro", TK_MACRO) ; (* :246 *)
    (PLit "endmacro", TK_ENDMACRO) ; (* :248 *)
    (PLit "sandbox", TK_SANDBOX) ; (* :250 *)
    (PLit "endsandbox", TK_ENDSANDBOX) ; (* :252 *)
    (PLit "set", TK_SET) ; (* :254 *)
    (PLit "endset", TK_ENDSET) ; (* :256 *)
    (PLit "use", TK_USE) ; (* :258 *)
    (PLit "verbatim", TK_VERBATIM) ; (* :260 *)
    (PLit "endverbatim", TK_ENDVERBATIM) ; (* :262 *)
    (PLit "only", TK_ONLY) ; (* :264 *)
    (PLit "ignore missing", TK_IGNORE_MISSING) ; (* :266 *)
    (PLit "with", TK_WITH) ; (* :268 *)
    (PLit "endwith", TK_ENDWITH) ; (* :270 *)
    (PLit "ttl", TK_TTL) ; (* :272 *)
    (PLit "tags", TK_TAGS) ; (* :274 *)
    (PLit "props", TK_PROPS) ; (* :276 *)
    (PLit "component", TK_COMPONENT) ; (* :278 *)
    (PLit "endcomponent", TK_ENDCOMPONENT) ; (* :280 *)
    (PLit "not", TK_NOT) ; (* :283 cb_not *)
    (PLit "or", TK_OR) ; (* :286 *)
    (PLit "and", TK_AND) ; (* :288 *)
    (PLit "b-or", TK_BINARY_OR) ; (* :290 *)
    (PLit "b-xor", TK_BINARY_XOR) ; (* :292 *)
    (PLit "b-and", TK_BINARY_AND) ; (* :294 *)
    (PLit "in", TK_IN) ; (* :296 *)
    (PLit "matches", TK_MATCHES) ; (* :298 *)
    (PLit "starts with", TK_STARTS_WITH) ; (* :300 *)
    (PLit "ends with", TK_ENDS_WITH) ; (* :302 *)
    (PLit "is", TK_IS) ; (* :304 cb_is *)
    (PLit "even", TK_EVEN) ; (* :308 *)
    (PLit "odd", TK_ODD) ; (* :310 *)
    (PLit "defined", TK_DEFINED) ; (* :312 *)
    (PLit "same as", TK_SAME_AS) ; (* :314 *)
    (PLit "as", TK_AS) ; (* :316 *)
    (PLitCI "none", TK_NONE) ; (* :318 *)
    (PLitCI "null", TK_NULL) ; (* :320 *)
    (PLit "divisible by", TK_DIVISIBLE_BY) ; (* :322 *)
    (PLit "constant", TK_CONSTANT) ; (* :324 *)
    (PLit "empty", TK_EMPTY) ; (* :326 *)
    (PLit "iterable", TK_ITERABLE) ; (* :328 *)
    (PLit "max", TK_MAX) ; (* :331 *)
    (PLit "min", TK_MIN) ; (* :333 *)
    (PLit "range", TK_RANGE) ; (* :335 *)
    (PLit "cycle", TK_CYCLE) ; (* :337 *)
    (PLit "random", TK_RANDOM) ; (* :339 *)
    (PLit "date", TK_DATE) ; (* :341 *)
    (PLit "include", TK_INCLUDE) ; (* :343 *)
    (PLit "source", TK_SOURCE) ; (* :345 *)
    (PLit "trans", TK_TRANS) ; (* :349 *)
    (PLit "endtrans", TK_ENDTRANS) ; (* :351 *)
    (PLit "sw_extends", TK_SW_EXTENDS) ; (* :355 *)
    (PLit "sw_silent_feature_call", TK_SW_SILENT_FEATURE_CALL) ; (* :357 *)
    (PLit "endsw_silent_feature_call", TK_ENDSW_SILENT_FEATURE_CALL) ; (* :359 *)
    (PLit "sw_include", TK_SW_INCLUDE) ; (* :361 *)
    (PLit "return", TK_RETURN) ; (* :363 *)
    (PLit "sw_icon", TK_SW_ICON) ; (* :365 *)
    (PLit "sw_thumbnails", TK_SW_THUMBNAILS) ; (* :367 *)
    (PLit "style", TK_STYLE) ; (* :369 *)
    (PLit "sw_embed", TK_SW_EMBED) ; (* :371 *)
    (PLit "sw_end_embed", TK_SW_END_EMBED) ; (* :373 *)
    (PLit "sw_use", TK_SW_USE) ; (* :375 *)
    (PLit "sw_import", TK_SW_IMPORT) ; (* :377 *)
    (PLit "sw_from", TK_SW_FROM) ; (* :379 *)
    (PLitCI "ludtwig-ignore-file", TK_LUDTWIG_IGNORE_FILE) ; (* :383 *)
    (PLitCI "ludtwig-ignore", TK_LUDTWIG_IGNORE) ; (* :385 *)
    (PRe re_ws, TK_WHITESPACE) ; (* :43 *)
    (PRe re_lb, TK_LINE_BREAK) ; (* :45 *)
    (PRe re_word, TK_WORD) ; (* :50 *)
    (PRe re_component, TK_TWIG_COMPONENT_NAME) ; (* :53 *)
    (PRe re_number, TK_NUMBER) ; (* :56 *)
    (PRe re_escape, TK_HTML_ESCAPE_CHARACTER) (* :59 *)
  ].

(** logos: longest match, then priority. *)
Fixpoint best_match (tbl : list (pattern * kind)) (s : text) (best : option (nat * kind))
  : option (nat * kind) :=
  match tbl with
  | [] => best
  | (p, k) :: tbl' =>
    let best' :=
      match pat_len p s with
      | None => best
      | Some n =>
        match best with
        | Some (m, _) => if Nat.ltb m n then Some (n, k) else best
        | None => Some (n, k)
        end
      end in
    best_match tbl' s best'
  end.

(** untyped.rs:559 and 576  [after.is_none_or(|s| s.starts_with([' ', '\t', '\n']) || s.is_empty())]. *)
Definition boundary_after (s : text) : bool :=
  match s with
  | [] => true
  | c :: _ => N.eqb c 32 || N.eqb c 9 || N.eqb c 10
  end.

(** untyped.rs:555-569 cb_not and 572-586 cb_is: [rest] is the remainder after the
    matched keyword; gives the chars to bump and the final kind. *)
Definition cb_suffix (suffix : string) (plain joined : kind) (rest : text) : nat * kind :=
  if starts_with (txt suffix) rest then
    if boundary_after (skipn (String.length suffix) rest)
    then (String.length suffix, joined) else (0, plain)
  else (0, plain).
(** syntax/untyped.rs:555-568 cb_not *)
Definition cb_not : text -> nat * kind := cb_suffix " in" TK_NOT TK_NOT_IN.
(** syntax/untyped.rs:571-584 cb_is *)
Definition cb_is : text -> nat * kind := cb_suffix " not" TK_IS TK_IS_NOT.

(** logos [Lexer::next] followed by lexer.rs:22 [unwrap_or(TK_UNKNOWN)] on nonempty
    input: number of chars of the token and its kind. *)
Definition lex_one (s : text) : nat * kind :=
  match best_match lex_table s None with
  | Some (n, TK_NOT) => let (b, k) := cb_not (skipn n s) in (n + b, k)
  | Some (n, TK_IS) => let (b, k) := cb_is (skipn n s) in (n + b, k)
  | Some (n, k) => (n, k)
  | None => (1, TK_UNKNOWN)
  end.

(** lexer.rs:7-31  lex; the loop, started at byte offset [off]. Fuel: one per char. *)
Fixpoint lex_go (fuel : nat) (off : nat) (s : text) : list token :=
  match fuel with
  | 0 => []
  | S fuel' =>
    match s with
    | [] => []
    | _ :: _ =>
      let (n, k) := lex_one s in
      let t := firstn n s in
      mkTok k t off (off + blen t) :: lex_go fuel' (off + blen t) (skipn n s)
    end
  end.
(** lexer.rs:7-31 lex *)
Definition lex (s : text) : list token := lex_go (List.length s) 0 s.
