(** The rules: crates/ludtwig/src/check/rules/*.rs *)
From Coq Require Import NArith Bool Arith String List.
Import ListNotations.
From Verif Require Import Text Kind Regex Lexer Machine TreeSpec Red Typed Rule Naming GrammarExpr GrammarTags.
Local Open Scope string_scope.
Local Open Scope list_scope.

(** * ludtwig_ignore_file_not_on_top.rs:13-25 *)
Definition rule_ignore_file_not_on_top : rule :=
  let name := txt "ludtwig-ignore-file-not-on-top" in
  node_rule name (fun _ node =>
    let? directive := cast LUDTWIG_DIRECTIVE_FILE_IGNORE node in
    let? p := parent directive in
    if negb (kind_eqb (el_kind p) ROOT) then
      Some (primary_note (el_start directive) (el_end directive)
              (txt "move this to the top level of the file (ideally the first line)")
              (create_result name SError
                (txt "ludtwig-ignore-file directive must be on the top level in a file otherwise it is discarded!")))
    else None).

(** * whitespace_between_line_breaks.rs:12-37 *)
Definition rule_whitespace_between_line_breaks : rule :=
  let name := txt "whitespace-between-line-breaks" in
  mkRule name no_check (fun _ token =>
    match
      (if negb (kind_eqb (el_kind token) TK_LINE_BREAK) then None else
       let? ws := next_token token in
       if negb (kind_eqb (el_kind ws) TK_WHITESPACE) then None else
       let? lb := next_token ws in
       if negb (kind_eqb (el_kind lb) TK_LINE_BREAK) then None else
       Some (add_suggestion (el_start ws) (el_end ws) [] (txt "Remove whitespace")
              (primary_note (el_start ws) (el_end ws) (txt "Unexpected whitespace on empty line")
                (create_result name SHelp (txt "Whitespace between line breaks")))))
    with Some r => [r] | None => [] end) no_root.

(** * line_ending.rs *)

(** line_ending.rs:26-37: the pattern that is reported.  It is compiled once per process from the
    configuration of the first call; the configuration is the same for all files of a run. *)
Definition invalid_line_ending (l : line_ending) : regex :=
  match l with
  | UnixLF => RSeq (RChar 13) (RChar 10)
  | WindowsCRLF => RSeq (ROpt (RClass [(0,12);(14,1114111)]%N)) (RChar 10)
  end.

(** regex crate, [find_iter]: leftmost matches from left to right, without overlap, as pairs
    of byte offsets.  Both patterns prefer the longer of two matches starting at the same
    position, so leftmost-first is leftmost-longest; neither matches the empty text.
    [skip] chars belong to the last match. *)
Fixpoint find_iter (r : regex) (skip : nat) (off : nat) (s : text) : list (nat * nat) :=
  match s with
  | [] => []
  | c :: s' =>
    match skip with
    | S k => find_iter r k (off + utf8_len c) s'
    | 0 =>
      match rlong r s with
      | Some (S k) => (off, off + blen (firstn (S k) s)) :: find_iter r k (off + utf8_len c) s'
      | _ => find_iter r 0 (off + utf8_len c) s'
      end
    end
  end.

(** line_ending.rs:16-62 *)
Definition rule_line_ending : rule :=
  let name := txt "line-ending" in
  mkRule name no_check (fun ctx token =>
    if negb (kind_eqb (el_kind token) TK_LINE_BREAK) then [] else
    let l := cf_line_ending (cx_config ctx) in
    map (fun m : nat * nat =>
           let s := el_start token + fst m in
           let e := el_start token + snd m in
           add_suggestion s e (line_ending_text l) (txt "use " ++ show_line_ending l ++ txt " instead")
             (primary_note s e (txt "this line ending does not conform to the configured style")
               (create_result name SWarning (txt "invalid line ending"))))
        (find_iter (invalid_line_ending l) 0 0 (el_text token))) no_root.

(** * indentation.rs *)

(** indentation.rs:318-328 *)
Definition count_char (c : N) (s : text) : nat := length (filter (N.eqb c) s).

(** indentation.rs:122-206 handle_first_token_in_line *)
Definition handle_first_token_in_line (ctx : context) (token : elem) (level substeps : nat)
  : list result :=
  let cf := cx_config ctx in
  let mode := cf_indentation_mode cf in
  let width := level * cf_indentation_count cf in
  let expected := repeat (indentation_char mode) width ++ repeat 32%N substeps in
  let notice := if Nat.ltb 0 substeps then txt " (+" ++ nat_text substeps ++ txt " spaces)" else [] in
  let amount := nat_text width ++ txt " " ++ show_indentation_mode mode ++ notice in
  let name := txt "indentation" in
  if kind_eqb (el_kind token) TK_WHITESPACE then
    if negb (text_eqb (el_text token) expected) then
      [add_suggestion (el_start token) (el_end token) expected (txt "Change indentation to " ++ amount)
        (primary_note (el_start token) (el_end token)
          (txt "Found " ++ nat_text (count_char 32 (el_text token)) ++ txt " spaces and "
             ++ nat_text (count_char 9 (el_text token)) ++ txt " tabs but expected indentation of "
             ++ amount ++ txt " here")
          (create_result name SHelp (txt "Wrong indentation")))]
    else []
  else if Nat.ltb 0 level || Nat.ltb 0 substeps then
    [add_suggestion (el_start token) (el_start token) expected
        (txt "Add " ++ amount ++ txt " indentation")
      (primary_note (el_start token) (el_start token)
        (txt "Expected indentation of " ++ amount ++ txt " before this")
        (create_result name SHelp (txt "Missing indentation")))]
  else [].

(** check.rs:98-104, 162-168 and indentation.rs:250-253: an HTML tag named pre, textarea,
    script or style *)
Definition sensitive_tag_name (n : text) : bool :=
  mem_text n [txt "pre"; txt "textarea"; txt "script"; txt "style"].
(** check.rs:98-104, 162-168, indentation.rs:250-253 *)
Definition is_sensitive_tag (e : elem) : bool :=
  match cast HTML_TAG e with
  | Some t => match html_tag_name t with Some n => sensitive_tag_name (el_text n) | None => false end
  | None => false
  end.

(** indentation.rs:272-282: the node adds an indentation level *)
Definition indents (indent_block_children : bool) (e : elem) : bool :=
  (match el_kind e with
   | BODY | TWIG_ARGUMENTS | TWIG_LITERAL_ARRAY_INNER | TWIG_LITERAL_HASH_ITEMS
   | TWIG_PROP_DECLARATION => true
   | _ => false
   end)
  && (indent_block_children
      || match parent e with Some p => negb (kind_eqb (el_kind p) TWIG_BLOCK) | None => true end).

(** indentation.rs:299-302: the extra alignment of attributes *)
Definition substeps_of (e : elem) : nat :=
  if kind_eqb (el_kind e) HTML_ATTRIBUTE_LIST then
    match (let? p := parent e in let? t := cast HTML_STARTING_TAG p in starting_tag_name t) with
    | Some name => 1 + length (el_text name) + 1
    | None => 0
    end
  else 0.

(** indentation.rs:18-26: the state of the walk *)
Record indent_state : Set := mkIndent
  { in_line_break : bool; in_level : nat; in_substeps : nat; in_sensitive : bool;
    in_ignored : bool; in_results : list result }.

(** [-=] on usize: an underflow panics (debug builds; it wraps around in release builds, which
    is treated as a crash as well) *)
Definition checked_sub (a b : nat) : out nat := if Nat.leb b a then Done (a - b) else Crashed.

(** indentation.rs:30-79 *)
Definition indent_enter (ctx : context) (s : indent_state) (e : elem) : out (indent_state * bool) :=
  if is_node (el_tree e) then
    if kind_eqb (el_kind e) ERROR then Done (s, true)
    else
      let (ign, skipped) := ignore_enter (txt "indentation") (in_ignored s) e in
      if skipped then Done (mkIndent (in_line_break s) (in_level s) (in_substeps s) (in_sensitive s) ign (in_results s), true)
      else
        Done (mkIndent (in_line_break s)
                (if indents (indent_children_of_blocks (cx_config ctx)) e then S (in_level s) else in_level s)
                (in_substeps s + substeps_of e)
                (if is_sensitive_tag e then true else in_sensitive s)
                ign (in_results s), false)
  else if kind_eqb (el_kind e) TK_LINE_BREAK then
    Done (mkIndent true (in_level s) (in_substeps s) (in_sensitive s) (in_ignored s) (in_results s), false)
  else
    let new := if negb (in_ignored s) && in_line_break s && negb (in_sensitive s)
               then handle_first_token_in_line ctx e (in_level s) (in_substeps s) else [] in
    Done (mkIndent false (in_level s) (in_substeps s) (in_sensitive s) (in_ignored s)
            (in_results s ++ new), false).

(** indentation.rs:80-103 *)
Definition indent_leave (ctx : context) (s : indent_state) (e : elem) : out indent_state :=
  if is_node (el_tree e) then
    let ign := ignore_leave (txt "indentation") (in_ignored s) e in
    let sens := if is_sensitive_tag e then false else in_sensitive s in
    match
      (if indents (indent_children_of_blocks (cx_config ctx)) e then checked_sub (in_level s) 1
       else Done (in_level s)) with
    | Crashed => Crashed
    | Done level =>
      match checked_sub (in_substeps s) (substeps_of e) with
      | Crashed => Crashed
      | Done sub => Done (mkIndent (in_line_break s) level sub sens ign (in_results s))
      end
    end
  else Done s.

(** indentation.rs:16-112 *)
Definition indent_root (ctx : context) (e : elem) : out (list result) :=
  match walk true (indent_enter ctx) (indent_leave ctx) (el_tree e) (el_off e) (el_path e)
             (mkIndent true 0 0 false false []) with
  | Done s => Done (in_results s)
  | Crashed => Crashed
  end.
(** indentation.rs:11-112 *)
Definition rule_indentation : rule :=
  mkRule (txt "indentation") no_check no_check indent_root.

(** * twig_block_line_breaks.rs *)

(** twig_block_line_breaks.rs:23-29, 36-42, 61-67 *)
Definition is_comment_kind (k : kind) : bool :=
  match k with
  | TWIG_COMMENT | HTML_COMMENT | LUDTWIG_DIRECTIVE_FILE_IGNORE | LUDTWIG_DIRECTIVE_IGNORE => true
  | _ => false
  end.

(** Option::is_none (std) *)
Definition is_none {A : Type} (o : option A) : bool := match o with None => true | Some _ => false end.

(** [str::repeat] *)
Definition repeat_text (s : text) (n : nat) : text := concat (repeat s n).

(** twig_block_line_breaks.rs:123-159 for one token *)
Definition check_line_break (name : text) (p : option elem * text * nat) : list result :=
  let '(may_be_token, expected, amount) := p in
  match may_be_token with
  | None => []
  | Some token =>
    if kind_eqb (el_kind token) TK_LINE_BREAK then
      if negb (text_eqb (el_text token) expected) then
        [add_suggestion (el_start token) (el_end token) expected
            (txt "Change to " ++ nat_text amount ++ txt " line breaks")
          (primary_note (el_start token) (el_end token)
            (txt "Expected " ++ nat_text amount ++ txt " line breaks here")
            (create_result name SHelp (txt "Wrong line break around block")))]
      else []
    else
      [add_suggestion (el_start token) (el_start token) expected
          (txt "Add " ++ nat_text amount ++ txt " line breaks before this")
        (primary_note (el_start token) (el_start token)
          (txt "Expected " ++ nat_text amount ++ txt " line breaks before this")
          (create_result name SHelp (txt "Missing line break around block")))]
  end.

(** twig_block_line_breaks.rs:14-166 *)
Definition check_block_line_breaks (ctx : context) (node : elem) : option (list result) :=
  let name := txt "twig-block-line-breaks" in
  if cx_sensitive ctx then None else
  let? block := cast TWIG_BLOCK node in
  let real_prev := let? n := prev_sibling block in
                   if is_comment_kind (el_kind n) then prev_sibling n else Some n in
  let real_next := let? n := next_sibling block in
                   if is_comment_kind (el_kind n) then next_sibling n else Some n in
  if match parent block with
     | None => true
     | Some p => kind_eqb (el_kind p) ROOT && is_none real_prev
     end
  then None else
  let? starting := starting_block block in
  let starting_syntax :=
    match prev_sibling block with
    | Some n => if is_comment_kind (el_kind n) then n else starting
    | None => starting
    end in
  let first_child_token := first_token starting_syntax in
  let? ending := ending_block block in
  let after_block_token :=
    let? l := last_token ending in
    let? t := next_token l in
    if match real_next with Some n => negb (kind_eqb (el_kind n) TWIG_BLOCK) | None => true end
    then Some t else None in
  let expected := line_ending_text (cf_line_ending (cx_config ctx)) in
  let amount := if linebreaks_around_blocks (cx_config ctx) then 2 else 1 in
  let before := match real_prev with Some _ => amount | None => 1 end in
  let after := match next_sibling block with Some _ => amount | None => 1 end in
  Some (flat_map (check_line_break name)
          [(first_child_token, repeat_text expected before, before);
           (after_block_token, repeat_text expected after, after)]).
(** twig_block_line_breaks.rs:14-166 *)
Definition rule_block_line_breaks : rule :=
  mkRule (txt "twig-block-line-breaks")
    (fun c e => match check_block_line_breaks c e with Some l => l | None => [] end) no_check no_root.

(** * twig_block_name_snake_case.rs:13-36 *)
Definition rule_block_name_snake_case : rule :=
  let name := txt "twig-block-name-snake-case" in
  node_rule name (fun _ node =>
    let? s := cast TWIG_STARTING_BLOCK node in
    let? n := starting_block_name s in
    if negb (is_valid_ascii_alpha_snake_case (el_text n) false) then
      let r := primary_note (el_start n) (el_end n) (txt "help: rename this block in snake_case")
                 (create_result name SHelp (txt "Block name is not written in snake_case")) in
      Some (match try_make_snake_case (el_text n) false with
            | Some a => add_suggestion (el_start n) (el_end n) a (txt "Try this name instead") r
            | None => r
            end)
    else None).

(** * html_attribute_name_kebab_case.rs:13-45 *)
Definition rule_attribute_name_kebab_case : rule :=
  let name := txt "html-attribute-name-kebab-case" in
  node_rule name (fun _ node =>
    let? attribute := cast HTML_ATTRIBUTE node in
    let? n := attribute_name attribute in
    let? tag := attribute_html_tag attribute in
    if is_twig_component tag then None else
    if negb (is_valid_alphanumeric_kebab_case (el_text n)) then
      let r := primary_note (el_start n) (el_end n) (txt "help: rename this attribute in kebab-case")
                 (create_result name SHelp (txt "Attribute name is not written in kebab-case")) in
      Some (match try_make_kebab_case (el_text n) with
            | Some a => add_suggestion (el_start n) (el_end n) a (txt "Try this name instead") r
            | None => r
            end)
    else None).

(** * twig_logic_and.rs:14-32, twig_logic_or.rs:14-33 *)
Definition rule_logic (name : text) (op : kind) (shown new : text) : rule :=
  node_rule name (fun _ node =>
    let? binary := cast TWIG_BINARY_EXPRESSION node in
    let? o := binary_operator binary in
    if kind_eqb (el_kind o) op then
      Some (add_suggestion (el_start o) (el_end o) new (txt "Try this operator instead")
             (primary_note (el_start o) (el_end o) (txt "help: change this operator")
               (create_result name SError
                  (txt "'" ++ shown ++ txt "' is not a valid twig operator"))))
    else None).
(** twig_logic_and.rs:14-32 *)
Definition rule_logic_and : rule :=
  rule_logic (txt "twig-logic-and") TK_DOUBLE_AMPERSAND (txt "&&") (txt "and").
(** twig_logic_or.rs:14-33 *)
Definition rule_logic_or : rule :=
  rule_logic (txt "twig-logic-or") TK_DOUBLE_PIPE (txt "||") (txt "or").

(** * Quotation *)

(** [SyntaxText::contains_char] *)
Definition contains_char (c : N) (s : text) : bool := existsb (N.eqb c) s.

(** str::starts_with (std) *)
Definition starts_with_char (c : N) (o : option elem) : bool :=
  match o with
  | Some t => match el_text t with x :: _ => N.eqb x c | [] => false end
  | None => false
  end.

(** twig_string_quotation.rs:57-100, html_string_quotation.rs:45-88
    make_changed_quotes_suggestion_if_possible *)
Definition change_quotes (str : elem) (inner : option elem) (quote : N) (r : result) : result :=
  match inner with
  | None => r
  | Some inner =>
    if contains_char quote (el_text inner) then r else
    let msg := txt "Try this quote instead" in
    let r := match opening_quote str with
             | Some q => add_suggestion (el_start q) (el_end q) [quote] msg r
             | None => add_suggestion (el_start inner) (el_start inner) [quote] msg r
             end in
    match closing_quote str with
    | Some q => add_suggestion (el_start q) (el_end q) [quote] msg r
    | None => add_suggestion (el_end inner) (el_end inner) [quote] msg r
    end
  end.

(** twig_string_quotation.rs:27-53, html_string_quotation.rs:16-41 *)
Definition check_quotes (name : text) (q : quotation) (str : elem) (inner : option elem)
  : option result :=
  let quote := quotation_char q in
  if negb (starts_with_char quote (opening_quote str))
     || negb (starts_with_char quote (closing_quote str)) then
    let (s, e) := range_trimmed_trivia str in
    Some (change_quotes str inner quote
            (primary_note s e (txt "help: change the quotation to " ++ show_quotation q)
              (create_result name SHelp (txt "wrong quotation"))))
  else None.

(** twig_string_quotation.rs:14-54 *)
Definition rule_twig_string_quotation : rule :=
  let name := txt "twig-string-quotation" in
  node_rule name (fun ctx node =>
    let? str := cast TWIG_LITERAL_STRING node in
    let q := twig_quotation (cx_config ctx) in
    if match q with QSingle => true | QDouble => false end
       && match twig_string_inner str with
          | Some inner => Nat.ltb 0 (length (get_interpolations inner))
          | None => false
          end
    then None else check_quotes name q str (twig_string_inner str)).

(** html_string_quotation.rs:13-42 *)
Definition rule_html_string_quotation : rule :=
  let name := txt "html-string-quotation" in
  node_rule name (fun ctx node =>
    let? str := cast HTML_STRING node in
    check_quotes name (html_quotation (cx_config ctx)) str (html_string_inner str)).

(** * twig_hash_key_no_quotes.rs:14-63 *)
Definition rule_hash_key_no_quotes : rule :=
  let name := txt "twig-hash-key-no-quotes" in
  node_rule name (fun _ node =>
    let? key := cast TWIG_LITERAL_HASH_KEY node in
    let? str := support_child TWIG_LITERAL_STRING key in
    let? inner := twig_string_inner str in
    if Nat.eqb (length (children_with_tokens inner)) 1 && rfull TWIG_NAME_REGEX (el_text inner) then
      let (s, e) := range_trimmed_trivia str in
      let r := primary_note s e (txt "help: remove quotation")
                 (create_result name SHelp (txt "unnecessary quotation")) in
      let msg := txt "remove this quote" in
      let r := match opening_quote str with
               | Some q => add_suggestion (el_start q) (el_end q) [] msg r
               | None => add_suggestion (el_start inner) (el_start inner) [] msg r
               end in
      Some (match closing_quote str with
            | Some q => add_suggestion (el_start q) (el_end q) [] msg r
            | None => add_suggestion (el_end inner) (el_end inner) [] msg r
            end)
    else None).

(** * twig_prefer_shopware_extends.rs:13-34 *)
Definition rule_prefer_shopware_extends : rule :=
  let name := txt "twig-prefer-shopware-extends" in
  node_rule name (fun _ node =>
    let? ext := cast TWIG_EXTENDS node in
    let? kw := extends_keyword ext in
    Some (add_suggestion (el_start kw) (el_end kw) (txt "sw_extends") (txt "Try this keyword instead")
           (primary_note (el_start ext) (el_end ext) (txt "change this 'extends' to 'sw_extends'")
             (create_result name SWarning (txt "prefer 'sw_extends' over 'extends' in shopware"))))).

(** * twig_use_is_same_as.rs:14-38, twig_use_is_not_same_as.rs:14-38 *)

(** [char::is_whitespace] (Unicode White_Space) and [str::trim] *)
Definition is_whitespace (c : N) : bool :=
  in_class [(9,13);(32,32);(133,133);(160,160);(5760,5760);(8192,8202);(8232,8233);
            (8239,8239);(8287,8287);(12288,12288)]%N c.
(** str::trim_start (std) *)
Definition trim_start (s : text) : text := skip_while is_whitespace s.
(** str::trim (std) *)
Definition trim (s : text) : text := rev (trim_start (rev (trim_start s))).

(** twig_use_is_same_as.rs:14-38, twig_use_is_not_same_as.rs:14-38: common code *)
Definition rule_same_as (name : text) (op : kind) (shown new : text) : rule :=
  node_rule name (fun _ node =>
    let? binary := cast TWIG_BINARY_EXPRESSION node in
    let? o := binary_operator binary in
    if negb (kind_eqb (el_kind o) op) then None else
    let r := primary_note (el_start o) (el_end o)
               (txt "This is not a valid Twig operator, try '" ++ new ++ txt "(condition)' instead")
               (create_result name SError (shown ++ txt " is not a valid twig operator")) in
    Some (match rhs_expression binary with
          | Some rhs =>
            (* TextRange::cover *)
            add_suggestion (Nat.min (el_start o) (el_start rhs)) (Nat.max (el_end o) (el_end rhs))
              (new ++ txt "(" ++ trim (el_text rhs) ++ txt ")") (txt "Try this instead") r
          | None => r
          end)).
(** twig_use_is_same_as.rs:14-38 *)
Definition rule_use_is_same_as : rule :=
  rule_same_as (txt "twig-use-is-same-as") TK_TRIPLE_EQUAL (txt "===") (txt "is same as").
(** twig_use_is_not_same_as.rs:14-38 *)
Definition rule_use_is_not_same_as : rule :=
  rule_same_as (txt "twig-use-is-not-same-as") TK_EXCLAMATION_MARK_DOUBLE_EQUALS (txt "!==") (txt "is not same as").

(** * Tables keyed by text: std HashMap *)
Fixpoint lookup {A : Type} (k : text) (l : list (text * A)) : option A :=
  match l with
  | (k', v) :: r => if text_eqb k' k then Some v else lookup k r
  | [] => None
  end.

(** State of the two duplicate rules: table, is_ignored, check_results. *)
Record dup_state : Set := mkDup
  { dp_table : list (text * elem); dp_ignored : bool; dp_results : list result }.

(** * twig_block_duplicate.rs *)

(** twig_block_duplicate.rs:34-58 *)
Definition block_duplicate_visit (s : dup_state) (e : elem) : dup_state :=
  match (let? b := cast TWIG_BLOCK e in let? n := block_name b in Some (b, n)) with
  | None => s
  | Some (b, n) =>
    match (let? b0 := lookup (el_text n) (dp_table s) in block_name b0) with
    | Some first =>
      mkDup (dp_table s) (dp_ignored s)
        (dp_results s ++
         [secondary_note (el_start first) (el_end first) (txt "first defined here")
           (primary_note (el_start n) (el_end n) (txt "duplicate block '" ++ el_text n ++ txt "'")
             (create_result (txt "twig-block-duplicate") SError (txt "block name duplicate")))])
    | None => mkDup ((el_text n, b) :: dp_table s) (dp_ignored s) (dp_results s)
    end
  end.

(** twig_block_duplicate.rs:23-59: the skip for an error node does not leave the handler *)
Definition block_duplicate_enter (s : dup_state) (e : elem) : out (dup_state * bool) :=
  let err := kind_eqb (el_kind e) ERROR in
  let (ign, skipped) := ignore_enter (txt "twig-block-duplicate") (dp_ignored s) e in
  let s := mkDup (dp_table s) ign (dp_results s) in
  if skipped then Done (s, true)
  else if ign then Done (s, err)
  else Done (block_duplicate_visit s e, err).

(** twig_block_duplicate.rs:60-62, html_duplicate_id.rs:85-87 *)
Definition duplicate_leave (name : text) (s : dup_state) (e : elem) : out dup_state :=
  Done (mkDup (dp_table s) (ignore_leave name (dp_ignored s) e) (dp_results s)).

(** twig_block_duplicate.rs:14-71, html_duplicate_id.rs:14-97: the loop over the tree *)
Definition duplicate_root (name : text) (enter : dup_state -> elem -> out (dup_state * bool))
  (ctx : context) (e : elem) : out (list result) :=
  match walk false enter (duplicate_leave name) (el_tree e) (el_off e) (el_path e) (mkDup [] false []) with
  | Done s => Done (dp_results s)
  | Crashed => Crashed
  end.
(** twig_block_duplicate.rs:14-71 *)
Definition rule_block_duplicate : rule :=
  mkRule (txt "twig-block-duplicate") no_check no_check
    (duplicate_root (txt "twig-block-duplicate") block_duplicate_enter).

(** * html_duplicate_id.rs *)

(** html_duplicate_id.rs:43-58: the static id of an id attribute *)
Definition attribute_inner (attribute : elem) : option elem :=
  let? v := attribute_value attribute in html_string_inner v.
(** html_duplicate_id.rs:34-58 *)
Definition static_id (attribute : elem) : option elem :=
  let? n := attribute_name attribute in
  if negb (text_eqb (el_text n) (txt "id")) then None else
  let? inner := attribute_inner attribute in
  match child_nodes inner with
  | _ :: _ => None
  | [] => match el_text inner with [] => None | _ => Some inner end
  end.

(** html_duplicate_id.rs:34-83 *)
Definition duplicate_id_visit (s : dup_state) (e : elem) : dup_state :=
  match (let? a := cast HTML_ATTRIBUTE e in let? inner := static_id a in Some (a, inner)) with
  | None => s
  | Some (a, inner) =>
    match (let? a0 := lookup (el_text inner) (dp_table s) in attribute_inner a0) with
    | Some first =>
      mkDup (dp_table s) (dp_ignored s)
        (dp_results s ++
         [secondary_note (el_start first) (el_end first) (txt "first defined here")
           (primary_note (el_start inner) (el_end inner) (txt "duplicate id '" ++ el_text inner ++ txt "'")
             (create_result (txt "html-duplicate-id") SWarning
                (txt "duplicate HTML element id attribute value")))])
    | None => mkDup ((el_text inner, a) :: dp_table s) (dp_ignored s) (dp_results s)
    end
  end.

(** html_duplicate_id.rs:22-84 *)
Definition duplicate_id_enter (s : dup_state) (e : elem) : out (dup_state * bool) :=
  if kind_eqb (el_kind e) ERROR then Done (s, true) else
  let (ign, skipped) := ignore_enter (txt "html-duplicate-id") (dp_ignored s) e in
  let s := mkDup (dp_table s) ign (dp_results s) in
  if skipped then Done (s, true)
  else if ign then Done (s, false)
  else Done (duplicate_id_visit s e, false).
(** html_duplicate_id.rs:14-96 *)
Definition rule_duplicate_id : rule :=
  mkRule (txt "html-duplicate-id") no_check no_check
    (duplicate_root (txt "html-duplicate-id") duplicate_id_enter).

(** * twig_json_encode_escape_js.rs *)

(** The name token of an operand that holds a plain name. *)
Definition operand_name (operand : elem) : option elem :=
  let? n := support_child TWIG_LITERAL_NAME operand in literal_name n.

(** twig_json_encode_escape_js.rs:49-74; [n] bounds the length of the chain (the size of the
    filter's tree suffices: every step goes to a proper part of it) *)
Fixpoint chain_contains_json_encode (n : nat) (flt : elem) : bool :=
  match n with
  | 0 => false
  | S n' =>
    if match (let? r := filter_filter flt in operand_name r) with
       | Some t => text_eqb (el_text t) (txt "json_encode") | None => false end
    then true
    else match (let? l := filter_operand flt in support_child TWIG_FILTER l) with
         | Some inner => chain_contains_json_encode n' inner
         | None => false
         end
  end.
(** bound of the loop chain_contains_json_encode; no counterpart in /repo *)
Fixpoint tree_size (t : tree) : nat :=
  match t with
  | Leaf _ _ => 1
  | Node _ cs => S (fold_right (fun c n => tree_size c + n) 0 cs)
  end.

(** twig_json_encode_escape_js.rs:13-45 *)
Definition rule_json_encode_escape_js : rule :=
  let name := txt "twig-json-encode-escape-js" in
  node_rule name (fun _ node =>
    let? flt := cast TWIG_FILTER node in
    let? r := filter_filter flt in
    let? t := operand_name r in
    if negb (text_eqb (el_text t) (txt "raw")) then None else
    if negb (chain_contains_json_encode (tree_size (el_tree flt)) flt) then None else
    Some (add_suggestion (el_start t) (el_end t) (txt "escape('js')") (txt "Try this filter instead")
           (primary_note (el_start t) (el_end t) (txt "help: replace 'raw' with escape('js')")
             (create_result name SWarning (txt "avoid raw after json_encode; use escape('js')"))))).

(** * twig_variable_definition_naming.rs *)

(** twig_variable_definition_naming.rs:35-45 *)
Definition is_constant_assignment (e : elem) : bool :=
  match (let? x := support_child TWIG_EXPRESSION e in
         let? f := support_child TWIG_FUNCTION_CALL x in
         let? o := name_operand f in operand_name o) with
  | Some n => text_eqb (el_text n) (txt "constant")
  | None => false
  end.

(** twig_variable_definition_naming.rs:47-96 *)
Definition check_literal_names (e : elem) (is_constant : bool) : list result :=
  let rule := txt "twig-variable-definition-naming" in
  flat_map (fun node =>
    match literal_name node with
    | None => []
    | Some t =>
      let name := el_text t in
      (if is_constant && negb (is_valid_ascii_alpha_snake_case name true) then
         let sug := match try_make_snake_case name true with
                    | Some s => s | None => txt "SCREAMING_SNAKE_CASE" end in
         [primary_note (el_start t) (el_end t) (txt "rename '" ++ name ++ txt "' to " ++ sug)
           (create_result rule SHelp (txt "twig constant name is not in SCREAMING_SNAKE_CASE"))]
       else []) ++
      (if negb is_constant && negb (is_camel_case name) then
         [primary_note (el_start t) (el_end t) (txt "rename '" ++ name ++ txt "' to camelCase")
           (create_result rule SHelp (txt "twig variable name is not in camelCase"))]
       else [])
    end) (support_children TWIG_LITERAL_NAME e).

(** twig_variable_definition_naming.rs:18-32 *)
Definition rule_variable_definition_naming : rule :=
  mkRule (txt "twig-variable-definition-naming") (fun _ node =>
    if negb (is_node (el_tree node)) then [] else
    match el_kind node with
    | TWIG_ASSIGNMENT => check_literal_names node (is_constant_assignment node)
    | TWIG_FOR_BLOCK => check_literal_names node false
    | _ => []
    end) no_check no_root.

(** * twig_valid_filter.rs, twig_valid_test.rs, twig_valid_function.rs *)

(** The name in an operand or expression: a plain name or the name of a function call
    (twig_valid_filter.rs:20-30, twig_valid_test.rs:51-65) *)
Definition name_or_call (e : elem) : option elem :=
  match support_child TWIG_LITERAL_NAME e with
  | Some n => literal_name n
  | None =>
    let? f := support_child TWIG_FUNCTION_CALL e in
    let? o := name_operand f in operand_name o
  end.

(** twig_valid_filter.rs:36-44, twig_valid_test.rs:32-40, twig_valid_function.rs: the result *)
Definition unknown_name (rule what : text) (t : elem) : result :=
  primary_note (el_start t) (el_end t)
    (txt "this " ++ what ++ txt " is not in the valid-" ++ what ++ txt "s config")
    (create_result rule SWarning (txt "unknown twig " ++ what ++ txt " '" ++ el_text t ++ txt "'")).

(** twig_valid_filter.rs:15-50 *)
Definition rule_valid_filter : rule :=
  let name := txt "twig-valid-filter" in
  node_rule name (fun ctx node =>
    let? flt := cast TWIG_FILTER node in
    let? r := filter_filter flt in
    let? t := name_or_call r in
    if negb (mem_text (el_text t) (valid_filters (cx_config ctx)))
    then Some (unknown_name name (txt "filter") t) else None).

(** twig_valid_test.rs:21 *)
Definition is_test_operator (o : elem) : bool :=
  kind_eqb (el_kind o) TK_IS || kind_eqb (el_kind o) TK_IS_NOT.

(** twig_valid_test.rs:16-46 *)
Definition rule_valid_test : rule :=
  let name := txt "twig-valid-test" in
  node_rule name (fun ctx node =>
    let? binary := cast TWIG_BINARY_EXPRESSION node in
    let? o := binary_operator binary in
    if negb (is_test_operator o) then None else
    let? rhs := rhs_expression binary in
    let? t := name_or_call rhs in
    if negb (mem_text (el_text t) (valid_tests (cx_config ctx)))
    then Some (unknown_name name (txt "test") t) else None).

(** SyntaxNode equality between two children of one node: the same position *)
Definition same_child (a b : elem) : bool := Nat.eqb (left_count a) (left_count b).

(** twig_valid_function.rs:19-49 *)
Definition is_filter_or_test_call (call : elem) : bool :=
  match parent call with
  | None => false
  | Some p =>
    match parent p with
    | None => false
    | Some g =>
      match cast TWIG_FILTER g with
      | Some flt => match filter_filter flt with Some f => same_child f p | None => false end
      | None => false
      end
      ||
      match cast TWIG_BINARY_EXPRESSION g with
      | Some b =>
        match binary_operator b with
        | Some o => is_test_operator o
                    && match rhs_expression b with Some r => same_child r p | None => false end
        | None => false
        end
      | None => false
      end
    end
  end.

(** twig_valid_function.rs:16-73 *)
Definition rule_valid_function : rule :=
  let name := txt "twig-valid-function" in
  node_rule name (fun ctx node =>
    let? call := cast TWIG_FUNCTION_CALL node in
    if is_filter_or_test_call call then None else
    let? o := name_operand call in
    let? t := operand_name o in
    if negb (mem_text (el_text t) (valid_functions (cx_config ctx)))
    then Some (unknown_name name (txt "function") t) else None).

(** * rules.rs:53-76 RULE_DEFINITIONS *)
Definition RULE_DEFINITIONS : list rule :=
  [ rule_ignore_file_not_on_top;
    rule_whitespace_between_line_breaks;
    rule_line_ending;
    rule_indentation;
    rule_block_line_breaks;
    rule_block_name_snake_case;
    rule_attribute_name_kebab_case;
    rule_logic_and;
    rule_logic_or;
    rule_twig_string_quotation;
    rule_html_string_quotation;
    rule_hash_key_no_quotes;
    rule_prefer_shopware_extends;
    rule_use_is_same_as;
    rule_use_is_not_same_as;
    rule_block_duplicate;
    rule_json_encode_escape_js;
    rule_duplicate_id;
    rule_variable_definition_naming;
    rule_valid_filter;
    rule_valid_test;
    rule_valid_function ].
